(** * VendorModel: the sparse products of the MKL and NVIDIA builds (model only).

    In these builds matvec(CRS) and matmul(CRS, Dense) call a vendor library.  The library is trusted and
    modelled by its documented contract: given a valid CSR matrix (row starts 0, non-decreasing, arrays
    long enough, column numbers inside the matrix), ?mv computes y := alpha*op(A)*x + beta*y and ?mm computes
    C := alpha*A*B + beta*C; for any other arrays the behaviour is undefined.  The order of the additions is
    fixed here; the theorems about these calls are in exact arithmetic only.
    A second component counts the library objects (handles, descriptors, device buffers) that are alive.
    On the NVIDIA path the arrays are those on the device (host/device protocol: GpuModel). *)
From Verif Require Import Base Scalar DenseModel Observe CrsModel CrsObserve.
Set Implicit Arguments.

Section VendorModel.
Context {F : Type} {SF : Scalar F}.

(** the precondition of mkl_sparse_?_create_csr, mkl_?csrmm, cusparseCreateCsr on (rows, cols, row starts =
    row_ptr, row ends = row_ptr + 1, columns, values) *)
Definition csr_valid (A : crs F) : bool :=
  (length (m_rp A) =? m_row A + 1) && (nth 0 (m_rp A) 0 =? 0) &&
  forallb (fun i => nth i (m_rp A) 0 <=? nth (i + 1) (m_rp A) 0) (seq 0 (m_row A)) &&
  (nth (m_row A) (m_rp A) 0 <=? length (m_ci A)) &&
  (m_first A + nth (m_row A) (m_rp A) 0 <=? length (m_val A)) &&
  forallb (fun k => nth k (m_ci A) 0 <? m_col A) (seq 0 (nth (m_row A) (m_rp A) 0)).

(** contract of mkl_sparse_?_mv / cusparseSpMV *)
Definition vendor_mv (trans : bool) (alpha : F) (A : crs F) (x : list F) (beta : F) (y : list F) : res (list F) :=
  if csr_valid A then
    Ok (map (fun i => fadd (fmul alpha (row_dot (if trans then ent_col (crs_entries A) i else crs_row A i) x))
                           (fmul beta (nth i y f0)))
            (seq 0 (if trans then m_col A else m_row A)))
  else UB.

(** contract of mkl_?csrmm / cusparseSpMM, row-major with leading dimension N = number of columns of B *)
Definition vendor_mm (alpha : F) (A : crs F) (B : dense F) (beta : F) (C : dense F) : res (dense F) :=
  let N := d_col B in
  if csr_valid A then
    v <- for_ 0 (m_row A) (fun i v => for_ 0 N (fun j v =>
           c <- rd v (d_first C + (i * N + j)) ;;
           wr v (d_first C + (i * N + j)) (fadd (fmul alpha (row_sum f0 (fun v => v) (crs_row A i) B j)) (fmul beta c))) v)
         (d_val C) ;;
    Ok (d_set_val C v)
  else UB.

(** src/blas/matrix/matvec/crs_matvec.hpp:13-20 = 123-130: the size checks *)
Definition mv_checks (A : crs F) (x y : list F) (transA : bool) : res unit :=
  if transA then assert_ (m_row A =? length x) ;;; assert_ (m_col A =? length y)
  else assert_ (m_row A =? length y) ;;; assert_ (m_col A =? length x).
(** crs_matvec.hpp:71-85 (double, MKL), 181-195 (float): a handle is created for each call; there is no
    mkl_sparse_destroy.  [h] counts the live library objects. *)
Definition mkl_matvec_core (alpha : F) (A : crs F) (x : list F) (beta : F) (y : list F) (transA : bool) (h : nat)
  : res (list F * nat) :=
  mv_checks A x y transA ;;;
  y' <- vendor_mv transA alpha A x beta y ;;
  Ok (y', h + 1).
(** crs_matvec.hpp:31-65 (double, NVIDIA), 141-175 (float): cusparseCreate, CreateCsr, 2 x CreateDnVec,
    cudaMalloc; then DestroySpMat, 2 x DestroyDnVec, cudaFree; there is no cusparseDestroy *)
Definition cuda_matvec_core (alpha : F) (A : crs F) (x : list F) (beta : F) (y : list F) (transA : bool) (h : nat)
  : res (list F * nat) :=
  mv_checks A x y transA ;;;
  let h := h + 1 + 1 + 2 + 1 in
  y' <- vendor_mv transA alpha A x beta y ;;
  Ok (y', h - 1 - 2 - 1).

(** src/blas/matrix/matmul/crs-dense_matmul.hpp:15-17, 159-161: the size checks *)
Definition mm_checks (A : crs F) (B C : dense F) : res unit :=
  assert_ (m_col A =? d_row B) ;;; assert_ (m_row A =? d_row C) ;;; assert_ (d_col B =? d_col C).
(** crs-dense_matmul.hpp:77-93 (double, MKL), 236-240 (float): mkl_?csrmm needs no handle *)
Definition mkl_matmul_core (a : F) (A : crs F) (B : dense F) (b : F) (C : dense F) (h : nat) : res (dense F * nat) :=
  mm_checks A B C ;;;
  C' <- vendor_mm a A B b C ;; Ok (C', h).
(** crs-dense_matmul.hpp:33-71 (double, NVIDIA), 190-230 (float): cusparseCreate is not matched by a
    cusparseDestroy; the three descriptors and the buffer are *)
Definition cuda_matmul_core (a : F) (A : crs F) (B : dense F) (b : F) (C : dense F) (h : nat) : res (dense F * nat) :=
  mm_checks A B C ;;;
  let h := h + 1 + 3 + 1 in
  C' <- vendor_mm a A B b C ;; Ok (C', h - 3 - 1).

(** src/blas/matrix/matvec/matvec_blas.cpp: matvec(A,x,y) = core(1, A, x, 0, y, false), matvec_T likewise,
    matvec(a,A,x,b,y); [core] is one of the two vendor cores *)
Definition vendor_matvec (core : F -> crs F -> list F -> F -> list F -> bool -> nat -> res (list F * nat)) (A : crs F) (x y : list F) (h : nat) :=
  core f1 A x f0 y false h.
Definition vendor_matvec_T (core : F -> crs F -> list F -> F -> list F -> bool -> nat -> res (list F * nat)) (A : crs F) (x y : list F) (h : nat) :=
  core f1 A x f0 y true h.

(** a program: y := A*x, [n] times (as a solver's iterations do) *)
Fixpoint vendor_repeat (core : F -> crs F -> list F -> F -> list F -> bool -> nat -> res (list F * nat)) (n : nat)
  (A : crs F) (x y : list F) (h : nat) : res (list F * nat) :=
  match n with
  | 0 => Ok (y, h)
  | S n' => '(y, h) <- vendor_matvec core A x y h ;; vendor_repeat core n' A x y h
  end.

End VendorModel.
