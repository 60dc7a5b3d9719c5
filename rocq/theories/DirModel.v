(** * DirModel: the dense direct solvers on the CPU (model only, no proofs).

    equation::LU, equation::Cholesky, standard_eigen::DC, generalized_eigen::DC on matrix::Dense and the wrappers
    internal::lapack::{getrf, getrs, sytrf, sytrs, syevd, sygvd} they call.

    LAPACK is external.  A Fortran routine gets the address data() of a buffer and works in place; what it computes is a
    field of the record [lapack], any function at all.  What is modelled besides the values: a routine called with
    arguments its documentation allows touches the documented part of each array, and if the buffer is shorter the call is
    undefined behaviour ([UB]).  A routine called with an argument it documents as illegal returns a negative info (the
    library's XERBLA is taken to return).
    Not here: on a sparse matrix (CRS) the CPU build of LU, Cholesky and QR only throws (lu.cpp:8-34, cholesky.cpp:8-32,
    src/equation/qr/qr.cpp:5-28).
    Simplifications: no device memory; size_t -> int casts do not overflow; the workspace query of ?syevd/?sygvd is
    not a separate step (it "returns the optimal sizes", touches no matrix and cannot fail).  float and double are the
    same code (d2f.sh). *)
From Coq Require Import ZArith.
From Verif Require Import Base Scalar DenseModel SolverModel.
Set Implicit Arguments.

(** LAPACK: src/internal/lapack/lapack.h (dgetrf_, dgetrs_, dsytrf_, dsytrs_, dsyevd_, dsygvd_).  Arrays are the
    contents of the buffer from data() on; the results are the new contents and info.
    l_getrf M N a lda ipiv; l_getrs (trans = 'T') n a lda ipiv b (nrhs = 1, ldb = n);
    l_sytrf (uplo = 'U') n a lda ipiv; l_sytrs (uplo = 'U') n a lda ipiv b (nrhs = 1, ldb = n);
    l_syevd (uplo = 'U') n a lda w (jobz = 'V'); l_sygvd itype (uplo = 'U') n a lda b ldb w (jobz = 'V') *)
Record lapack (F : Type) := Lapack {
  l_getrf : nat -> nat -> list F -> nat -> list nat -> list F * list nat * Z;
  l_getrs : bool -> nat -> list F -> nat -> list nat -> list F -> list F * Z;
  l_sytrf : bool -> nat -> list F -> nat -> list nat -> list F * list nat * Z;
  l_sytrs : bool -> nat -> list F -> nat -> list nat -> list F -> list F * Z;
  l_syevd : bool -> nat -> list F -> nat -> list F -> list F * list F * Z;
  l_sygvd : Z -> bool -> nat -> list F -> nat -> list F -> nat -> list F -> list F * list F * list F * Z }.

Section DirModel.
Context {F : Type} {SF : Scalar F}.
Variable L : lapack F.

(** the last element of an M x N column-major array with leading dimension lda lies inside a buffer of [len] elements *)
Definition fits (M N lda len : nat) : bool := (M =? 0) || (N =? 0) || ((N - 1) * lda + M <=? len).

(** src/internal/lapack/getrf/dense_double_getrf.cpp:12-69.  Lines 17-20 build an exception object and drop it (no
    [throw]); line 64: dgetrf_(M = row, N = col, data(), lda = M, ipiv) *)
Definition getrf (A : dense F) (ipiv : list nat) : res (dense F * list nat * Z) :=
  let M := d_row A in let N := d_col A in let lda := M in
  (if Nat.max 1 M <=? lda
   then if fits M N lda (length (d_val A)) && (Nat.min M N <=? length ipiv) then Ok tt else UB
   else Ok tt) ;;;
  let '(a, p, info) := l_getrf L M N (d_val A) lda ipiv in Ok (d_set_val A a, p, info).

(** src/internal/lapack/getrs/dense_double_getrs.cpp:12-72; line 65: dgetrs_('T', n = row, nrhs = 1, data(), lda = col,
    ipiv, B.data(), ldb = row).  The exception of line 19 is again not thrown *)
Definition getrs (A : dense F) (B : list F) (ipiv : list nat) : res (list F * Z) :=
  let M := d_row A in let lda := d_col A in let ldb := M in
  (if (Nat.max 1 M <=? lda) && (Nat.max 1 M <=? ldb)
   then if fits M M lda (length (d_val A)) && (M <=? length ipiv) && (M <=? length B) then Ok tt else UB
   else Ok tt) ;;;
  Ok (l_getrs L true M (d_val A) lda ipiv B).

(** src/internal/lapack/sytrf/dense_double_sytrf.cpp:12-71; line 65: dsytrf_('U', n = row, data(), lda = row, ipiv,
    work[row], lwork = row).  The exception of line 24 is not thrown *)
Definition sytrf (A : dense F) (ipiv : list nat) : res (dense F * list nat * Z) :=
  let M := d_row A in let lda := M in
  (if Nat.max 1 M <=? lda
   then if fits M M lda (length (d_val A)) && (M <=? length ipiv) then Ok tt else UB
   else Ok tt) ;;;
  let '(a, p, info) := l_sytrf L true M (d_val A) lda ipiv in Ok (d_set_val A a, p, info).

(** src/internal/lapack/sytrs/dense_double_sytrs.cpp:12-82; line 78: dsytrs_('U', n = row, 1, data(), lda = col, ipiv,
    B.data(), ldb = row) *)
Definition sytrs (A : dense F) (B : list F) (ipiv : list nat) : res (list F * Z) :=
  let M := d_row A in let lda := d_col A in let ldb := M in
  (if (Nat.max 1 M <=? lda) && (Nat.max 1 M <=? ldb)
   then if fits M M lda (length (d_val A)) && (M <=? length ipiv) && (M <=? length B) then Ok tt else UB
   else Ok tt) ;;;
  Ok (l_sytrs L true M (d_val A) lda ipiv B).

(** src/equation/lu/lu.cpp:36-64 (float 65-88)  LU<Dense>::solve(A, XB).  The member [lib] tested there is LU's own
    private one (include/monolish_equation.hpp:475, always 1), not the one set_lib() sets, so the throwing branch is
    unreachable; [lib] here is what set_lib() set *)
Definition lu_lib : nat := 1.
Definition lu_solve_in (lib : nat) (A : dense F) (XB : list F) : res (Z * dense F * list F) :=
  if lu_lib =? 1 then
    let ipiv := repeat 0%nat (Nat.min (d_row A) (d_col A)) in
    '(A, ipiv, info) <- getrf A ipiv ;;
    let ret := if (info =? 0)%Z then SUCCESS else BREAKDOWN in
    '(XB, info2) <- getrs A XB ipiv ;;
    let ret := if (info2 =? 0)%Z then ret else BREAKDOWN in
    Ok (ret, A, XB)
  else Throw.
(** src/equation/lu/lu.cpp:90-117 (float 119-145)  solve(A, x, b): copies b to x, then the same *)
Definition lu_solve (lib : nat) (A : dense F) (x b : list F) : res (Z * dense F * list F) :=
  if lu_lib =? 1 then
    let ipiv := repeat 0%nat (Nat.min (d_row A) (d_col A)) in
    x <- v_copy b x ;;
    '(A, ipiv, info) <- getrf A ipiv ;;
    let ret := if (info =? 0)%Z then SUCCESS else BREAKDOWN in
    '(x, info2) <- getrs A x ipiv ;;
    let ret := if (info2 =? 0)%Z then ret else BREAKDOWN in
    Ok (ret, A, x)
  else Throw.

(** src/equation/cholesky/cholesky.cpp:39-74 (float 75-107)  Cholesky<Dense>::solve(A, XB); A.recv(), XB.recv() and
    XB.send() do nothing without device memory.  [lib]: Cholesky's own private member, as above
    (include/monolish_equation.hpp:590-594) *)
Definition chol_solve_in (lib : nat) (A : dense F) (XB : list F) : res (Z * dense F * list F) :=
  if lu_lib =? 1 then
    let ipiv := repeat 0%nat (Nat.min (d_row A) (d_col A)) in
    '(A, ipiv, info) <- sytrf A ipiv ;;
    let ret := if (info =? 0)%Z then SUCCESS else BREAKDOWN in
    '(XB, info2) <- sytrs A XB ipiv ;;
    let ret := if (info2 =? 0)%Z then ret else BREAKDOWN in
    Ok (ret, A, XB)
  else Throw.
(** src/equation/cholesky/cholesky.cpp:109-143 (float 145-178)  solve(A, x, b) *)
Definition chol_solve (lib : nat) (A : dense F) (x b : list F) : res (Z * dense F * list F) :=
  if lu_lib =? 1 then
    let ipiv := repeat 0%nat (Nat.min (d_row A) (d_col A)) in
    x <- v_copy b x ;;
    '(A, ipiv, info) <- sytrf A ipiv ;;
    let ret := if (info =? 0)%Z then SUCCESS else BREAKDOWN in
    '(x, info2) <- sytrs A x ipiv ;;
    let ret := if (info2 =? 0)%Z then ret else BREAKDOWN in
    Ok (ret, A, x)
  else Throw.

(** src/internal/lapack/syev/dense_double_syev.cpp:12-84: n = row, lda = row; no size is checked *)
Definition syevd (A : dense F) (W : list F) : res (dense F * list F * Z) :=
  let size := d_row A in
  (if Nat.max 1 size <=? size
   then if fits size size size (length (d_val A)) && (size <=? length W) then Ok tt else UB
   else Ok tt) ;;;
  let '(a, w, info) := l_syevd L true size (d_val A) size W in Ok (d_set_val A a, w, info).
(** src/eigen/DC.cpp:8-26 LAPACK_DC and 33-45 solve: any lib other than 0 does nothing and returns 0 *)
Definition dc_solve (lib : nat) (A : dense F) (lambda : list F) : res (Z * dense F * list F) :=
  if lib =? 0 then
    '(A, lambda, info) <- syevd A lambda ;;
    Ok (if (0 <? info)%Z then BREAKDOWN else if (info <? 0)%Z then RESIDUAL_NAN else SUCCESS, A, lambda)
  else Ok (0%Z, A, lambda).

(** src/internal/lapack/sygv/dense_double_sygv.cpp:12-103: n = row of A; B is used as a matrix of the same order *)
Definition sygvd (itype : Z) (A B : dense F) (W : list F) : res (dense F * dense F * list F * Z) :=
  let size := d_row A in
  (if (1 <=? itype)%Z && (itype <=? 3)%Z && (Nat.max 1 size <=? size)
   then if fits size size size (length (d_val A)) && fits size size size (length (d_val B)) && (size <=? length W) then Ok tt else UB
   else Ok tt) ;;;
  let '(a, b, w, info) := l_sygvd L itype true size (d_val A) size (d_val B) size W in
  Ok (d_set_val A a, d_set_val B b, w, info).
(** src/eigen/DC.cpp:53-72 LAPACK_DC and 81-94 solve *)
Definition gdc_solve (lib : nat) (A B : dense F) (lambda : list F) (itype : Z) : res (Z * dense F * dense F * list F) :=
  if lib =? 0 then
    '(A, B, lambda, info) <- sygvd itype A B lambda ;;
    Ok (if (0 <? info)%Z then BREAKDOWN else if (info <? 0)%Z then RESIDUAL_NAN else SUCCESS, A, B, lambda)
  else Ok (0%Z, A, B, lambda).
End DirModel.
