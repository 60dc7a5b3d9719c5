(** * AliasModel: calls whose result object is also, or overlaps, an operand (model only).

    CrsModel.v describes the products for an output apart from the inputs.  Here x and y (B and C) are pointers into
    one memory, so a call such as matvec(A, x, x), or matvec on two overlapping view1D windows of one vector, is expressible:
    every load sees the stores made so far. *)
From Verif Require Import Base Scalar Mem VecModel DenseModel CooModel CrsModel CrsParModel.
Set Implicit Arguments.

Section AliasModel.
Context {F : Type} {SF : Scalar F} {SC : Schedule}.
Notation mem := (Mem.mem F).
Notation prog := (Mem.prog F).

(** src/blas/matrix/matvec/crs_matvec.hpp:101-108 (double), 210-217 (float): iteration i; [pA] is A.begin(), [px] is
    x.begin(), [py] is y.begin() *)
Definition a_matvec (A : crs F) (pA px py : ptr) (i : nat) : prog unit :=
  p_range A i (fun lo hi =>
    t <~ pfor lo hi (fun j t =>
      v <-- padd pA j ;; c <~ plift (rd (m_ci A) j) ;; xc <-- padd px c ;;
      Ret (fadd t (fmul v xc))) f0 ;;
    padd py i <== t ;; Ret tt).
(** crs_matvec.hpp:8-114, transA = false (asserts 18-19) *)
Definition k_matvec (A : crs F) (pA : ptr) (x y : arg) : kernel (F := F) :=
  mkKernel ((m_row A =? a_len y) && (m_col A =? a_len x)) (m_row A) (a_matvec A pA (a_ptr x) (a_ptr y)).

(** crs_matvec.hpp:93-99 (double), 202-208 (float): row i of the scatter loop of the transposed product *)
Definition a_matvec_T (A : crs F) (pA px py : ptr) (i : nat) : prog unit :=
  p_range A i (fun lo hi =>
    pfor lo hi (fun j _ =>
      c <~ plift (rd (m_ci A) j) ;;
      y0 <-- padd py c ;; v <-- padd pA j ;; xi <-- padd px i ;;
      padd py c <== fadd y0 (fmul v xi) ;; Ret tt) tt).
(** crs_matvec.hpp:8-114, transA = true (asserts 15-16): the parallel zero fill of y (lines 89-92), then the rows one after
    the other.  Only the one-thread order is given (the zero fill is proved schedule independent in C39). *)
Definition alias_matvec_T (A : crs F) (pA : ptr) (x y : arg) (m : mem) : res mem :=
  assert_ ((m_row A =? a_len x) && (m_col A =? a_len y)) ;;;
  m <- seq_for (a_len y) (map0 f0 (a_ptr y)) m ;;
  seq_for (m_row A) (a_matvec_T A pA (a_ptr x) (a_ptr y)) m.

(** src/blas/matrix/matmul/crs-dense_matmul.hpp:133-144 (double), 307-318 (float), build without AVX: iteration j (a column);
    [pB] is B.begin(), [pC] is C.begin(), N the number of columns of B *)
Definition a_matmul (a : F) (A : crs F) (b : F) (N : nat) (pA pB pC : ptr) (j : nat) : prog unit :=
  pfor 0 (m_row A) (fun i _ =>
    p_range A i (fun lo hi =>
      tmp <~ pfor lo hi (fun k t =>
        p <-- padd pA k ;; c <~ plift (rd (m_ci A) k) ;; q <-- padd pB (N * c + j) ;;
        Ret (fadd t (fmul p q))) f0 ;;
      old <-- padd pC (i * N + j) ;;
      padd pC (i * N + j) <== fadd (fmul a tmp) (fmul b old) ;; Ret tt)) tt.
(** crs-dense_matmul.hpp:8-20: the dimension checks; a Dense argument is its begin() and its dimensions *)
Record darg := mkDarg { g_ptr : ptr; g_rows : nat; g_cols : nat }.
Definition k_matmul (a : F) (A : crs F) (pA : ptr) (B : darg) (b : F) (C : darg) : kernel (F := F) :=
  mkKernel ((m_col A =? g_rows B) && (m_row A =? g_rows C) && (g_cols B =? g_cols C)) (g_cols B)
    (a_matmul a A b (g_cols B) pA (g_ptr B) (g_ptr C)).

(** src/utils/transpose/transpose_crs.cpp:57-107  A.transpose(A): [B] is the object itself, so B.row_ptr, B.col_ind and
    B.data() are the arrays being overwritten, and the bound of the inner loop (line 88) is read again before every
    iteration.  [fuel] bounds the iterations of one inner loop (NoFuel = not decided within the bound). *)
Fixpoint crs_self_scatter (fuel i j : nat) (st : list nat * list nat * list F) : res (list nat * list nat * list F) :=
  let '(rp, ci, v) := st in
  hi <- rd rp (i + 1) ;;
  if j <? hi then
    match fuel with
    | 0 => NoFuel
    | S fuel' =>
        c <- rd ci j ;;
        d <- rd rp c ;;
        ci <- wr ci d i ;;
        x <- rd v j ;; v <- wr v d x ;;
        rp <- wr rp c (d + 1) ;;
        crs_self_scatter fuel' i (S j) (rp, ci, v)
    end
  else Ok (rp, ci, v).
Definition crs_transpose_self (fuel : nat) (a : crs F) : res (crs F) :=
  let n := m_col a in (* rowN = B.get_col(); colN = B.get_row() which is the new rowN *)
  let a1 := m_set_own (m_set_st (m_set_rc a n n) (vresize 0 (m_rp a) (n + 1)) (vresize 0 (m_ci a) (m_nnz a))) in
  a2 <- crs_resize a1 (m_nnz a1) f0 ;;
  rp <- for_ 0 (n + 1) (fun i rp => wr rp i 0) (m_rp a2) ;;
  rp <- for_ 0 (m_nnz a2) (fun i rp => c <- rd (m_ci a2) i ;; k <- rd rp c ;; wr rp c (k + 1)) rp ;;
  '(rp, _) <- for_ 0 n (fun i st =>
          let '(rp, sum) := st in
          tmp <- rd rp i ;; rp <- wr rp i sum ;; Ok (rp, sum + tmp)) (rp, 0) ;;
  rp <- wr rp n (m_nnz a2) ;;
  '(rp, ci, v) <- for_ 0 n (fun i st =>
      let '(rp, ci, v) := st in lo <- rd rp i ;; crs_self_scatter fuel i lo (rp, ci, v)) (rp, m_ci a2, m_val a2) ;;
  '(rp, _) <- for_ 0 n (fun i st =>
          let '(rp, sum) := st in
          tmp <- rd rp i ;; rp <- wr rp i sum ;; Ok (rp, tmp)) (rp, 0) ;;
  Ok (crs_compute_hash (m_set_val (m_set_st a2 rp ci) v)).
End AliasModel.
