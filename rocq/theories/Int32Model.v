(** * Int32Model: where the library narrows sizes to a 32-bit int (model only).

    The other models take sizes as natural numbers.  Here the narrowing conversions and the int
    arithmetic are kept:
    - CBLAS with its usual (LP64) interface takes its lengths as [int]: cblas_?axpy, ?scal, ?dot, ?asum,
      ?copy receive a size_t that is converted, and by the reference implementation do nothing (return 0)
      for a length <= 0;
    - blas::matmul(CRS, Dense, Dense) computes all its dimensions and subscripts in int.
    size_t itself (64 bit) is a natural number; host memory, one thread for the matrix product. *)
From Verif Require Import Base Scalar Mem VecModel ReduceModel DenseModel CrsModel TensorModel TensorBlasModel.
Set Implicit Arguments.

(** size_t -> int at a CBLAS call, and the number of elements the routine then processes (reference
    BLAS: [if (n <= 0) return]) *)
Definition blas_n (n : nat) : nat := Z.to_nat (int_of n).

(** int addition: overflow is undefined *)
Definition int_add (a b : Z) : res Z :=
  if ((- 2 ^ 31 <=? a + b) && (a + b <? 2 ^ 31))%Z then Ok (a + b)%Z else UB.

Section Int32Model.
Context {F : Type} {SF : Scalar F}.
Notation mem := (mem F).

(** src/blas/vector/axpy.hpp:31 (double), 61 (float): cblas_?axpy(size, ...) *)
Definition k_axpy32 (alpha : F) (x y : arg) : kernel (F := F) :=
  mkKernel (same2 x y) (blas_n (a_len x))
    (map2 (fun a b => fadd b (fmul alpha a)) (a_ptr x) (a_ptr y) (a_ptr y)).
(** src/blas/vector/scal.hpp:25, 49: cblas_?scal(size, ...) *)
Definition k_scal32 (alpha : F) (x : arg) : kernel (F := F) :=
  mkKernel true (blas_n (a_len x)) (map1 (fun a => fmul alpha a) (a_ptr x) (a_ptr x)).
(** src/blas/vector/copy.hpp:5-16 with internal::vcopy (src/internal/arithmetic/double_arithmetic.cpp:248,
    float_arithmetic.cpp:248): cblas_?copy(N, ...) *)
Definition k_copy32 (x y : arg) : kernel (F := F) :=
  mkKernel (same2 x y) (blas_n (a_len y)) (map1 (fun a => a) (a_ptr x) (a_ptr y)).
(** src/utils/vector_constructor.cpp:159-176  copy constructor (resize, then internal::vcopy) *)
Definition vec_copy32 (m : mem) (v : vec) : res (mem * vec) :=
  '(m1, w) <- vec_new m (v_nnz v) ;;
  m2 <- seq_for (blas_n (v_nnz v)) (map1 (fun a => a) (v_data v) (v_data w)) m1 ;;
  Ok (m2, w).
(** src/utils/copy/copy_vector.cpp:24-37  vector = vector, through internal::vcopy *)
Definition k_vec_assign32 (v : vec) (x : arg) : kernel (F := F) :=
  mkKernel (v_nnz v =? a_len x) (blas_n (a_len x)) (map1 (fun a => a) (a_ptr x) (v_begin v)).

(** src/blas/vector/dot.hpp:31, 68: cblas_?dot(size, ...) *)
Definition r_dot32 (x y : arg) : reduction (F := F) :=
  additive (same2 x y) (blas_n (a_len x))
    (fun m i => a <- ld m (padd (a_ptr x) i) ;; b <- ld m (padd (a_ptr y) i) ;; Ok (fmul a b)) (fun v => v).
(** src/blas/vector/asum.hpp:25, 57: cblas_?asum(size, ...) *)
Definition r_asum32 (x : arg) : reduction (F := F) :=
  additive true (blas_n (a_len x)) (fun m i => v <- ld m (padd (a_ptr x) i) ;; Ok (fabs v)) (fun v => v).
(** src/blas/vector/nrm2.hpp:26, 58: sqrt(cblas_?dot(size, ...)) *)
Definition r_nrm2_32 (x : arg) : reduction (F := F) :=
  additive true (blas_n (a_len x))
    (fun m i => a <- ld m (padd (a_ptr x) i) ;; b <- ld m (padd (a_ptr x) i) ;; Ok (fmul a b)) fsqrt.

(** ** CRS * Dense with its int subscripts *)

(** src/blas/matrix/matmul/crs-dense_matmul.hpp:28-30, 133-144 (double, scalar CPU), 172-174, 307-318
    (float): M, N are ints; the subscripts [N * cold[k] + j] and [i * N + j] are int expressions.
    Simplified: the elements of rowd and cold are ints in range (natural numbers here); [i * N + j],
    written twice in the statement, is evaluated once. *)
Definition matmul_scalar32 (a : F) (A : crs F) (B : dense F) (b : F) (C : dense F) : res (dense F) :=
  assert_ (m_col A =? d_row B) ;;; assert_ (m_row A =? d_row C) ;;; assert_ (d_col B =? d_col C) ;;;
  let M := int_of (m_row A) in let N := int_of (d_col B) in
  v <- for_ 0 (Z.to_nat N) (fun j v =>
    for_ 0 (Z.to_nat M) (fun i v =>
      lo <- rd (m_rp A) i ;; hi <- rd (m_rp A) (i + 1) ;;
      tmp <- for_ lo hi (fun k t =>
        p <- rd (m_val A) (m_first A + k) ;; c <- rd (m_ci A) k ;;
        x <- int_mul N (Z.of_nat c) ;; x <- int_add x (Z.of_nat j) ;;
        q <- rd (d_val B) (d_first B + Z.to_nat x) ;;
        Ok (fadd t (fmul p q))) f0 ;;
      y <- int_mul (Z.of_nat i) N ;; y <- int_add y (Z.of_nat j) ;;
      old <- rd v (d_first C + Z.to_nat y) ;;
      wr v (d_first C + Z.to_nat y) (fadd (fmul a tmp) (fmul b old))) v) (d_val C) ;;
  Ok (d_set_val C v).

(** crs-dense_matmul.hpp:116-125 (double), 263-300 (float): one trip of a SIMD loop: [BB = Br + j],
    [CC = Cr + j], then for each offset [o] a SIMD step at BB + o, CC + o *)
Fixpoint simd_trip32 (w : nat) (offs : list nat) (Av : F) (Bd : list F) (fB : nat) (BB : Z) (fC : nat) (CC : Z) (Cd : list F)
  : res (list F) :=
  match offs with
  | [] => Ok Cd
  | o :: offs' =>
      x <- int_add BB (Z.of_nat o) ;; y <- int_add CC (Z.of_nat o) ;;
      Cd <- simd_step w Av Bd (fB + Z.to_nat x) Cd (fC + Z.to_nat y) ;;
      simd_trip32 w offs' Av Bd fB BB fC CC Cd
  end.
(** crs-dense_matmul.hpp:115 [for (j = 0; j < N - (vecL - 1); j += vecL)], 262, 291: the bound is an int
    subtraction *)
Definition simd_loop32 (w : nat) (offs : list nat) (lanes : nat) (N : Z) (Av : F) (Bd : list F) (fB : nat) (Br : Z)
  (fC : nat) (Cr : Z) (j : nat) (Cd : list F) : res (list F * nat) :=
  _ <- int_sub N (Z.of_nat (w - 1)) ;;
  simd_while (S (Z.to_nat N)) w (Z.to_nat N) (fun j Cd =>
    BB <- int_add Br (Z.of_nat j) ;; CC <- int_add Cr (Z.of_nat j) ;;
    simd_trip32 lanes offs Av Bd fB BB fC CC Cd) j Cd.
(** crs-dense_matmul.hpp:127-129, 301-303: the scalar remainder *)
Definition simd_rest32 (a v : F) (Bd : list F) (fB : nat) (Br : Z) (fC : nat) (Cr : Z) (j : nat) (N : Z) (Cd : list F)
  : res (list F) :=
  for_ j (Z.to_nat N) (fun j Cd =>
    x <- int_add Cr (Z.of_nat j) ;; y <- int_add Br (Z.of_nat j) ;;
    c <- rd Cd (fC + Z.to_nat x) ;; q <- rd Bd (fB + Z.to_nat y) ;;
    wr Cd (fC + Z.to_nat x) (fadd c (fmul (fmul a v) q))) Cd.
(** crs-dense_matmul.hpp:109-130 (double, vecL = 4) *)
Definition avx_entry_double32 (a v : F) (Bd : list F) (fB : nat) (Br : Z) (fC : nat) (Cr N : Z) (Cd : list F) : res (list F) :=
  let Av := fmul a v in
  '(Cd, j) <- simd_loop32 4 [0] 4 N Av Bd fB Br fC Cr 0 Cd ;;
  simd_rest32 a v Bd fB Br fC Cr j N Cd.
(** crs-dense_matmul.hpp:256-304 (float) *)
Definition avx_entry_float32 (a v : F) (Bd : list F) (fB : nat) (Br : Z) (fC : nat) (Cr N : Z) (Cd : list F) : res (list F) :=
  let Av := fmul a v in
  '(Cd, j) <- simd_loop32 32 [0; 8; 16; 24] 8 N Av Bd fB Br fC Cr 0 Cd ;;
  '(Cd, j) <- simd_loop32 8 [0] 8 N Av Bd fB Br fC Cr j Cd ;;
  simd_rest32 a v Bd fB Br fC Cr j N Cd.
(** crs-dense_matmul.hpp:97-131 (double, AVX), 244-305 (float, AVX): [M * N], [i * N] and [N * cold[k]]
    are int products *)
Definition matmul_avx32 (entry : F -> F -> list F -> nat -> Z -> nat -> Z -> Z -> list F -> res (list F))
  (a : F) (A : crs F) (B : dense F) (b : F) (C : dense F) : res (dense F) :=
  assert_ (m_col A =? d_row B) ;;; assert_ (m_row A =? d_row C) ;;; assert_ (d_col B =? d_col C) ;;;
  let M := int_of (m_row A) in let N := int_of (d_col B) in
  MN <- int_mul M N ;;
  v <- for_ 0 (Z.to_nat MN) (fun i v => c <- rd v (d_first C + i) ;; wr v (d_first C + i) (fmul b c)) (d_val C) ;;
  v <- for_ 0 (Z.to_nat M) (fun i v =>
      lo <- rd (m_rp A) i ;; hi <- rd (m_rp A) (i + 1) ;;
      Cr <- int_mul (Z.of_nat i) N ;;
      for_ lo hi (fun k v =>
        c <- rd (m_ci A) k ;; p <- rd (m_val A) (m_first A + k) ;;
        Br <- int_mul N (Z.of_nat c) ;;
        entry a p (d_val B) (d_first B) Br (d_first C) Cr N v) v) v ;;
  Ok (d_set_val C v).

End Int32Model.
