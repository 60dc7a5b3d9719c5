(** * CrsParModel: the OpenMP loops of the CRS operations, access by access (model only).

    CrsModel.v describes what these loops compute when executed by one thread, on plain lists.  Here the
    same loops are programs over a shared memory (Mem.v), so that iterations of different threads can be
    interleaved.  row_ptr and col_ind are never written by these loops and stay lists; A.val, x, y, B, C are
    buffers of the memory, named by their buffer numbers ([bA], [bx], ...).  Asserts are those of CrsModel.v
    (evaluated before the loop) and are not repeated here. *)
From Verif Require Import Base Scalar Mem DenseModel CrsModel.
Set Implicit Arguments.

Section CrsParModel.
Context {F : Type} {SF : Scalar F}.
Notation mem := (mem F).
Notation prog := (prog F).

(** rowd[i], rowd[i+1] *)
Definition p_range {B} (A : crs F) (i : nat) (k : nat -> nat -> prog B) : prog B :=
  lo <~ plift (rd (m_rp A) i) ;; hi <~ plift (rd (m_rp A) (i + 1)) ;; k lo hi.

(** src/blas/matrix/matvec/crs_matvec.hpp:101-108 (double), 210-217 (float) *)
Definition p_matvec (A : crs F) (bA bx b : nat) (i : nat) : prog unit :=
  p_range A i (fun lo hi =>
    t <~ pfor lo hi (fun j t =>
      v <-- (bA, m_first A + j) ;; c <~ plift (rd (m_ci A) j) ;; xc <-- (bx, c) ;;
      Ret (fadd t (fmul v xc))) f0 ;;
    (b, i) <== t ;; Ret tt).
(** crs_matvec.hpp:89-92: the parallel part of the transposed product (zero fill) *)
Definition p_zero (b : nat) (i : nat) : prog unit := (b, i) <== f0 ;; Ret tt.

(** src/blas/matrix/times/crs_times.hpp:54-59 *)
Definition p_times_row (A : crs F) (fC : nat) (bA bx bC : nat) (i : nat) : prog unit :=
  p_range A i (fun lo hi =>
    pfor lo hi (fun j _ =>
      p <-- (bA, m_first A + j) ;; c <~ plift (rd (m_ci A) j) ;; xc <-- (bx, c) ;;
      (bC, fC + j) <== fmul p xc ;; Ret tt) tt).
(** crs_times.hpp:95-100 *)
Definition p_times_col (A : crs F) (fC : nat) (bA bx bC : nat) (i : nat) : prog unit :=
  p_range A i (fun lo hi =>
    pfor lo hi (fun j _ =>
      p <-- (bA, m_first A + j) ;; xi <-- (bx, i) ;; (bC, fC + j) <== fmul p xi ;; Ret tt) tt).
(** src/blas/matrix/times/crs_line_times.hpp:38-41: iteration [n] is j = rowd[num] + n *)
Definition p_times_row_line (A : crs F) (fC : nat) (lo : nat) (bA bx bC : nat) (n : nat) : prog unit :=
  let j := lo + n in
  p <-- (bA, m_first A + j) ;; c <~ plift (rd (m_ci A) j) ;; xc <-- (bx, c) ;;
  (bC, fC + j) <== fmul p xc ;; Ret tt.
(** crs_line_times.hpp:81-88 *)
Definition p_times_col_line (A : crs F) (num : nat) (fC : nat) (bA bx bC : nat) (i : nat) : prog unit :=
  p_range A i (fun lo hi =>
    pfor lo hi (fun j _ =>
      c <~ plift (rd (m_ci A) j) ;;
      if c =? num then p <-- (bA, m_first A + j) ;; xi <-- (bx, i) ;; (bC, fC + j) <== fmul p xi ;; Ret tt
      else Ret tt) tt).

(** src/blas/matrix/diag_op/crs_diag_op.hpp:32-39 (and 111-118, 190-197, 269-276) *)
Definition p_diag_scalar (op : F -> F -> F) (A : crs F) (alpha : F) (bA : nat) (i : nat) : prog unit :=
  p_range A i (fun lo hi =>
    pfor lo hi (fun j _ =>
      c <~ plift (rd (m_ci A) j) ;;
      if i =? c then p <-- (bA, j) ;; (bA, j) <== op p alpha ;; Ret tt else Ret tt) tt).
(** crs_diag_op.hpp:73-80 (and 152-159, 231-238, 310-317) *)
Definition p_diag_vector (op : F -> F -> F) (A : crs F) (bA bx : nat) (i : nat) : prog unit :=
  p_range A i (fun lo hi =>
    pfor lo hi (fun j _ =>
      c <~ plift (rd (m_ci A) j) ;;
      if i =? c then p <-- (bA, j) ;; q <-- (bx, i) ;; (bA, j) <== op p q ;; Ret tt else Ret tt) tt).

(** src/blas/matrix/matmul/crs-dense_matmul.hpp:133-144 (double), 307-318 (float): iterations over the columns j *)
Definition p_matmul_scalar (a : F) (A : crs F) (fB : nat) (b : F) (fC N : nat) (bA bB bC : nat) (j : nat) : prog unit :=
  pfor 0 (m_row A) (fun i _ =>
    p_range A i (fun lo hi =>
      tmp <~ pfor lo hi (fun k t =>
        p <-- (bA, m_first A + k) ;; c <~ plift (rd (m_ci A) k) ;; q <-- (bB, fB + (N * c + j)) ;;
        Ret (fadd t (fmul p q))) f0 ;;
      old <-- (bC, fC + (i * N + j)) ;;
      (bC, fC + (i * N + j)) <== fadd (fmul a tmp) (fmul b old) ;; Ret tt)) tt.

(** crs-dense_matmul.hpp:100-103, 247-250: scaling of C *)
Definition p_scale (b : F) (fC : nat) (bC : nat) (i : nat) : prog unit :=
  c <-- (bC, fC + i) ;; (bC, fC + i) <== fmul b c ;; Ret tt.
(** one SIMD step of [w] lanes (crs-dense_matmul.hpp:120-124 ff.): all loads, then all stores *)
Definition p_simd_step (w : nat) (Av : F) (bB BB bC CC : nat) : prog unit :=
  regs <~ pfor 0 w (fun l regs => q <-- (bB, BB + l) ;; c <-- (bC, CC + l) ;; Ret (regs ++ [fadd c (fmul Av q)])) [] ;;
  pfor 0 w (fun l _ => r <~ plift (rd regs l) ;; (bC, CC + l) <== r ;; Ret tt) tt.
Fixpoint p_simd_while (fuel w N : nat) (step : nat -> prog unit) (j : nat) : prog nat :=
  if j + w <=? N then
    match fuel with
    | 0 => Bad
    | S fuel' => _ <~ step j ;; p_simd_while fuel' w N step (j + w)
    end
  else Ret j.
(** crs-dense_matmul.hpp:127-129, 301-303 *)
Definition p_simd_rest (a v : F) (bB Br bC Cr j N : nat) : prog unit :=
  pfor j N (fun j _ => c <-- (bC, Cr + j) ;; q <-- (bB, Br + j) ;;
    (bC, Cr + j) <== fadd c (fmul (fmul a v) q) ;; Ret tt) tt.
(** crs-dense_matmul.hpp:110-130 (double) *)
Definition p_entry_double (a v : F) (bB Br bC Cr N : nat) : prog unit :=
  let Av := fmul a v in
  j <~ p_simd_while (S N) 4 N (fun j => p_simd_step 4 Av bB (Br + j) bC (Cr + j)) 0 ;;
  p_simd_rest a v bB Br bC Cr j N.
(** crs-dense_matmul.hpp:257-303 (float) *)
Definition p_entry_float (a v : F) (bB Br bC Cr N : nat) : prog unit :=
  let Av := fmul a v in
  j <~ p_simd_while (S N) 32 N (fun j =>
      _ <~ p_simd_step 8 Av bB (Br + j) bC (Cr + j) ;;
      _ <~ p_simd_step 8 Av bB (Br + j + 8) bC (Cr + j + 8) ;;
      _ <~ p_simd_step 8 Av bB (Br + j + 16) bC (Cr + j + 16) ;;
      p_simd_step 8 Av bB (Br + j + 24) bC (Cr + j + 24)) 0 ;;
  j <~ p_simd_while (S N) 8 N (fun j => p_simd_step 8 Av bB (Br + j) bC (Cr + j)) j ;;
  p_simd_rest a v bB Br bC Cr j N.
(** crs-dense_matmul.hpp:105-131, 252-305: iterations over the rows i *)
Definition p_matmul_avx (entry : F -> F -> nat -> nat -> nat -> nat -> nat -> prog unit)
  (a : F) (A : crs F) (fB fC N : nat) (bA bB bC : nat) (i : nat) : prog unit :=
  p_range A i (fun lo hi =>
    pfor lo hi (fun k _ =>
      c <~ plift (rd (m_ci A) k) ;; p <-- (bA, m_first A + k) ;;
      entry a p bB (fB + N * c) bC (fC + i * N) N) tt).

(** src/utils/getvec/crs_getvec.cpp:42-49 (second loop of diag), 444-451 (col) *)
Definition p_getdiag (A : crs F) (bA b : nat) (i : nat) : prog unit :=
  p_range A i (fun lo hi =>
    pfor lo hi (fun j _ =>
      c <~ plift (rd (m_ci A) j) ;;
      if i =? c then x <-- (bA, j) ;; (b, i) <== x ;; Ret tt else Ret tt) tt).
Definition p_getcol (A : crs F) (c0 : nat) (bA b : nat) (i : nat) : prog unit :=
  p_range A i (fun lo hi =>
    pfor lo hi (fun j _ =>
      c <~ plift (rd (m_ci A) j) ;;
      if c0 =? c then x <-- (bA, j) ;; (b, i) <== x ;; Ret tt else Ret tt) tt).
(** crs_getvec.cpp:254-257 (second loop of row): iteration [n] is j = rowd[r] + n *)
Definition p_getrow (A : crs F) (lo : nat) (bA b : nat) (n : nat) : prog unit :=
  c <~ plift (rd (m_ci A) (lo + n)) ;; x <-- (bA, lo + n) ;; (b, c) <== x ;; Ret tt.

(** src/internal/arithmetic/double_arithmetic.cpp:297-301 vequal; [ans] is one shared bool, here the cell
    (bans,0) with 1 = true, 0 = false *)
Definition p_vequal (ba by_ bans : nat) (i : nat) : prog unit :=
  y <-- (by_, i) ;; a <-- (ba, i) ;; if feqb y a then Ret tt else (bans, 0) <== f0 ;; Ret tt.

(** src/utils/getvec/linearoperator_getvec.cpp:97-103 (also 149-155, 201-207): diag of an operator into a view1D;
    the unit vector [tmp] (buffer bt) is shared by all threads.  The operator is one whose matvec
    multiplies by the n-column matrix [Mx]. *)
Definition p_linop_diag (Mx : nat -> nat -> F) (n : nat) (bt b : nat) (i : nat) : prog unit :=
  (bt, i) <== f1 ;;
  s <~ pfor 0 n (fun k s => t <-- (bt, k) ;; Ret (fadd s (fmul (Mx i k) t))) f0 ;;
  (b, i) <== s ;;
  (bt, i) <== f0 ;; Ret tt.

End CrsParModel.
