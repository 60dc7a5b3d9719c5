(** * CrsModel: matrix::CRS<Float> and its BLAS kernels (model only, no proofs).

    Same conventions as DenseModel/CooModel: host memory only, [int] indices as naturals,
    OpenMP loops written sequentially (ParProof.v justifies that), logger omitted.
    The configuration modelled is the "OSS" one (neither MKL nor CUDA), with the AVX and
    the scalar variant of the CRS*Dense product.

    A vector argument is the list of the elements [begin()..begin()+size()). *)
From Coq Require Import NArith.
From Verif Require Import Base Scalar DenseModel CooModel.
Set Implicit Arguments.

(** How the OpenMP runtime distributes the iterations 0..N-1 of a parallel loop over its
    threads: one list of iterations per thread. Used only by [vhash], whose result really
    depends on it. *)
Class Schedule := sched : nat -> list (list nat).

(** include/monolish/common/monolish_crs.hpp (data members): rowN, colN, row_ptr, col_ind
    (std::vector<int>), val (buffer of alloc_nnz values), first, val_nnz, alloc_nnz,
    val_create_flag, structure_hash (size_t). *)
Record crs (F : Type) := mkCrs {
  m_row : nat; m_col : nat; m_rp : list nat; m_ci : list nat; m_val : list F;
  m_first : nat; m_nnz : nat; m_alloc : nat; m_own : bool; m_hash : N }.
Arguments mkCrs {F}.

(** size_t arithmetic: modulo 2^64 *)
Definition wrap64 (n : N) : N := N.modulo n (2 ^ 64)%N.

(** src/internal/math/integer_math.cpp:29-32  one iteration on the thread-private [seed]:
    seed ^= i + 0x9e3779b9 + (seed << 6) + (seed >> 2).  The array argument [y] is never read. *)
Definition hash_step (seed : N) (i : nat) : N :=
  N.lxor seed (wrap64 (N.of_nat i + 2654435769 + N.shiftl seed 6 + N.shiftr seed 2)).

(** integer_math.cpp:12-39  vhash: OpenMP reduction(^ : seed) - every thread starts from the
    identity 0 and the results are xor-ed into the original seed. *)
Definition vhash {SC : Schedule} (n : nat) (seed : N) : N :=
  fold_left (fun acc its => N.lxor acc (fold_left hash_step its 0%N)) (sched n) seed.

(** util::is_same_size / is_same_structure return bool *)

Section CrsModel.
Context {F : Type} {SF : Scalar F} {SC : Schedule}.

Definition m_set_val (a : crs F) (v : list F) : crs F :=
  mkCrs (m_row a) (m_col a) (m_rp a) (m_ci a) v (m_first a) (m_nnz a) (m_alloc a) (m_own a) (m_hash a).
Definition m_set_own (a : crs F) : crs F :=
  mkCrs (m_row a) (m_col a) (m_rp a) (m_ci a) (m_val a) (m_first a) (m_nnz a) (m_alloc a) true (m_hash a).
Definition m_set_rc (a : crs F) (r c : nat) : crs F :=
  mkCrs r c (m_rp a) (m_ci a) (m_val a) (m_first a) (m_nnz a) (m_alloc a) (m_own a) (m_hash a).
Definition m_set_st (a : crs F) (rp ci : list nat) : crs F :=
  mkCrs (m_row a) (m_col a) rp ci (m_val a) (m_first a) (m_nnz a) (m_alloc a) (m_own a) (m_hash a).

(** default constructor *)
Definition crs_empty : crs F := mkCrs 0 0 [] [] [] 0 0 0 true 0%N.

(** src/utils/hash.cpp:10-20 compute_hash.  [row_ptr]/[col_ind] contribute only their sizes. *)
Definition crs_compute_hash (a : crs F) : crs F :=
  let h := vhash (length (m_ci a)) (vhash (length (m_rp a)) (N.of_nat (m_row a))) in
  mkCrs (m_row a) (m_col a) (m_rp a) (m_ci a) (m_val a) (m_first a) (m_nnz a) (m_alloc a) (m_own a) h.

(** monolish_crs.hpp:516-543  resize(N, Val) *)
Definition crs_resize (a : crs F) (N : nat) (Val : F) : res (crs F) :=
  if m_first a + N <? m_alloc a then
    v <- for_ (m_nnz a) N (fun i v => wr v (m_first a + i) Val) (m_val a) ;;
    Ok (mkCrs (m_row a) (m_col a) (m_rp a) (m_ci a) v (m_first a) N (m_alloc a) (m_own a) (m_hash a))
  else if m_own a then
    let copy_size := Nat.min (m_nnz a) N in
    tmp <- for_ 0 copy_size (fun i t => x <- rd (m_val a) i ;; wr t i x) (repeat f0 N) ;;
    tmp <- for_ copy_size N (fun i t => wr t i Val) tmp ;;
    Ok (mkCrs (m_row a) (m_col a) (m_rp a) (m_ci a) tmp 0 N N true (m_hash a))
  else Throw.

(** internal::vcopy (src/internal/math/*_math.cpp): dst[i] = src[i], i < N *)
Definition vcopyA {A} (N : nat) (src dst : list A) : res (list A) :=
  for_ 0 N (fun i t => x <- rd src i ;; wr t i x) dst.

(** src/utils/crs_constructor.cpp:26-43  CRS(M, N, NNZ, rowptr, colind, value) *)
Definition crs_of_arrays (M N NNZ : nat) (rowptr colind : list nat) (value : list F) : res (crs F) :=
  let a := mkCrs M N (repeat 0 (M + 1)) (repeat 0 NNZ) [] 0 0 0 true 0%N in
  a <- crs_resize a NNZ f0 ;;
  rp <- vcopyA (M + 1) rowptr (m_rp a) ;;
  ci <- vcopyA NNZ colind (m_ci a) ;;
  v <- vcopyA NNZ value (m_val a) ;;
  Ok (crs_compute_hash (mkCrs M N rp ci v (m_first a) (m_nnz a) (m_alloc a) true 0%N)).

(** crs_constructor.cpp:154-185  copy constructor *)
Definition crs_copy (m : crs F) : res (crs F) :=
  a <- crs_resize crs_empty (m_nnz m) f0 ;;
  let ci0 := vresize 0 [] (length (m_ci m)) in
  let rp0 := vresize 0 [] (length (m_rp m)) in
  rp <- vcopyA (length (m_rp m)) (m_rp m) rp0 ;;
  ci <- vcopyA (length (m_ci m)) (m_ci m) ci0 ;;
  v <- for_ 0 (m_nnz m) (fun i t => x <- rd (m_val m) (m_first m + i) ;; wr t (m_first a + i) x) (m_val a) ;;
  Ok (crs_compute_hash (mkCrs (m_row m) (m_col m) rp ci v (m_first a) (m_nnz a) (m_alloc a) true 0%N)).

(** crs_constructor.cpp:190-221  CRS(mat, value): same structure, all values [value].
    col_ind is resized to get_nnz() (line 196) but col_ind.size() elements are copied (215). *)
Definition crs_copy_value (m : crs F) (value : F) : res (crs F) :=
  a <- crs_resize crs_empty (m_nnz m) f0 ;;
  let ci0 := vresize 0 [] (m_nnz m) in
  let rp0 := vresize 0 [] (m_row m + 1) in
  rp <- vcopyA (length (m_rp m)) (m_rp m) rp0 ;;
  ci <- vcopyA (length (m_ci m)) (m_ci m) ci0 ;;
  v <- for_ 0 (m_nnz m) (fun i t => wr t i value) (m_val a) ;;
  Ok (crs_compute_hash (mkCrs (m_row m) (m_col m) rp ci v (m_first a) (m_nnz a) (m_alloc a) true 0%N)).

(** src/utils/convert/convert_crs.cpp:9-43  CRS::convert(COO), [this] = a *)
Definition crs_convert_coo (a : crs F) (c : coo F) : res (crs F) :=
  let a1 := m_set_own (m_set_rc a (c_row c) (c_col c)) in
  a2 <- crs_resize a1 (c_nnz c) f0 ;;
  v <- for_ 0 (c_nnz c) (fun i t => x <- rd (c_val c) i ;; wr t i x) (m_val a2) ;;
  let ci := c_ci c in
  let rp0 := vresize 0 (m_rp a2) (c_row c + 1) in
  rp1 <- wr rp0 0 0 ;;
  '(rp, _) <- for_ 0 (c_nnz c) (fun i st =>
      let '(rp, crow) := st in
      r <- rd (c_ri c) i ;;
      if crow =? r then
        rp <- wr rp (crow + 1) (i + 1) ;; Ok (rp, crow)
      else
        rp <- for_ (crow + 1) r (fun j rp => wr rp (j + 1) i) rp ;;
        rp <- wr rp (r + 1) (i + 1) ;; Ok (rp, r)) (rp1, 0) ;;
  Ok (crs_compute_hash (m_set_val (m_set_st a2 rp ci) v)).

(** convert_crs.cpp:47-72  CRS::convert(CRS), [this] = a *)
Definition crs_convert_crs (a m : crs F) : res (crs F) :=
  a1 <- crs_resize a (m_nnz m) f0 ;;
  let ci0 := vresize 0 (m_ci a1) (m_nnz m) in
  let rp0 := vresize 0 (m_rp a1) (m_row m + 1) in
  rp <- vcopyA (length (m_rp m)) (m_rp m) rp0 ;;
  ci <- vcopyA (length (m_ci m)) (m_ci m) ci0 ;;
  v <- vcopyA (m_nnz m) (m_val m) (m_val a1) ;;
  Ok (mkCrs (m_row m) (m_col m) rp ci v (m_first a1) (m_nnz a1) (m_alloc a1) true (m_hash m)).

(** src/utils/convert/convert_coo.cpp:9-30  COO::convert(CRS), [this] = c *)
Definition coo_convert_crs (c : coo F) (m : crs F) : res (coo F) :=
  let c1 := mkCoo (m_row m) (m_col m) (c_ri c) (c_ci c) (c_val c) (c_nnz c) (c_alloc c) true in
  c2 <- coo_resize c1 (m_nnz m) f0 ;;
  let ri0 := vresize 0 (c_ri c2) (m_nnz m) in
  let ci0 := vresize 0 (c_ci c2) (m_nnz m) in
  '(ri, ci, v) <- for_ 0 (m_row m) (fun i st =>
      lo <- rd (m_rp m) i ;; hi <- rd (m_rp m) (i + 1) ;;
      for_ lo hi (fun j st =>
        let '(ri, ci, v) := st in
        ri <- wr ri j i ;;
        q <- rd (m_ci m) j ;; ci <- wr ci j q ;;
        x <- rd (m_val m) j ;; v <- wr v j x ;;
        Ok (ri, ci, v)) st) (ri0, ci0, c_val c2) ;;
  Ok (mkCoo (c_row c2) (c_col c2) ri ci v (c_nnz c2) (c_alloc c2) true).

(** ** transpose *)

(** src/utils/transpose/transpose_crs.cpp:74-102 (= 21-49): the counting sort from [B] into
    freshly sized arrays [rp], [ci], [v] (rp of size B.col+1, ci of size nnz, v of size >= nnz);
    [nnz] is this->get_nnz() *)
Definition crs_transpose_core (B : crs F) (nnz : nat) (rp ci : list nat) (v : list F)
  : res (list nat * list nat * list F) :=
  rp <- for_ 0 (m_col B + 1) (fun i rp => wr rp i 0) rp ;;
  (* count *)
  rp <- for_ 0 nnz (fun i rp =>
          c <- rd (m_ci B) i ;; n <- rd rp c ;; wr rp c (n + 1)) rp ;;
  (* prefix sum *)
  '(rp, _) <- for_ 0 (m_col B) (fun i st =>
          let '(rp, sum) := st in
          tmp <- rd rp i ;; rp <- wr rp i sum ;; Ok (rp, sum + tmp)) (rp, 0) ;;
  rp <- wr rp (m_col B) (m_nnz B) ;;
  (* scatter *)
  '(rp, ci, v) <- for_ 0 (m_row B) (fun i st =>
      lo <- rd (m_rp B) i ;; hi <- rd (m_rp B) (i + 1) ;;
      for_ lo hi (fun j st =>
        let '(rp, ci, v) := st in
        c <- rd (m_ci B) j ;;
        d <- rd rp c ;;
        ci <- wr ci d i ;;
        x <- rd (m_val B) j ;; v <- wr v d x ;;
        rp <- wr rp c (d + 1) ;;
        Ok (rp, ci, v)) st) (rp, ci, v) ;;
  (* shift back *)
  '(rp, _) <- for_ 0 (m_col B) (fun i st =>
          let '(rp, sum) := st in
          tmp <- rd rp i ;; rp <- wr rp i sum ;; Ok (rp, tmp)) (rp, 0) ;;
  Ok (rp, ci, v).

(** transpose_crs.cpp:9-53  transpose() in place: B is a copy of the first get_nnz() entries *)
Definition crs_transpose (a : crs F) : res (crs F) :=
  B <- crs_of_arrays (m_row a) (m_col a) (m_nnz a) (m_rp a) (m_ci a) (m_val a) ;;
  '(rp, ci, v) <- crs_transpose_core B (m_nnz a) (vresize 0 (m_rp a) (m_col B + 1))
                    (vresize 0 (m_ci a) (m_nnz B)) (m_val a) ;;
  Ok (crs_compute_hash (mkCrs (m_col B) (m_row B) rp ci v (m_first a) (m_nnz a) (m_alloc a)
                         (m_own a) (m_hash a))).

(** transpose_crs.cpp:57-107  this.transpose(B), distinct objects *)
Definition crs_transpose_from (a B : crs F) : res (crs F) :=
  let a1 := m_set_own (m_set_st (m_set_rc a (m_col B) (m_row B))
              (vresize 0 (m_rp a) (m_col B + 1)) (vresize 0 (m_ci a) (m_nnz B))) in
  a2 <- crs_resize a1 (m_nnz B) f0 ;;
  '(rp, ci, v) <- crs_transpose_core B (m_nnz a2) (m_rp a2) (m_ci a2) (m_val a2) ;;
  Ok (crs_compute_hash (m_set_val (m_set_st a2 rp ci) v)).

(** ** row / col / diag *)

(** src/utils/getvec/crs_getvec.cpp:8-55 (vector overload) *)
Definition crs_diag (a : crs F) (vec : list F) : res (list F) :=
  let n := if m_row a <? m_col a then m_row a else m_col a in
  assert_ (n =? length vec) ;;;
  vec <- for_ 0 n (fun i w => wr w i f0) vec ;;
  for_ 0 n (fun i w =>
    lo <- rd (m_rp a) i ;; hi <- rd (m_rp a) (i + 1) ;;
    for_ lo hi (fun j w =>
      c <- rd (m_ci a) j ;;
      if i =? c then x <- rd (m_val a) j ;; wr w i x else Ok w) w) vec.

(** crs_getvec.cpp:221-261 row: the size check uses get_row() *)
Definition crs_getrow (a : crs F) (r : nat) (vec : list F) : res (list F) :=
  let n := m_row a in
  assert_ (n =? length vec) ;;;
  vec <- for_ 0 n (fun i w => wr w i f0) vec ;;
  lo <- rd (m_rp a) r ;; hi <- rd (m_rp a) (r + 1) ;;
  for_ lo hi (fun j w => c <- rd (m_ci a) j ;; x <- rd (m_val a) j ;; wr w c x) vec.

(** crs_getvec.cpp:412-458 col: the size check and the row loop use get_col() *)
Definition crs_getcol (a : crs F) (c0 : nat) (vec : list F) : res (list F) :=
  let n := m_col a in
  assert_ (n =? length vec) ;;;
  vec <- for_ 0 n (fun i w => wr w i f0) vec ;;
  for_ 0 n (fun i w =>
    lo <- rd (m_rp a) i ;; hi <- rd (m_rp a) (i + 1) ;;
    for_ lo hi (fun j w =>
      c <- rd (m_ci a) j ;;
      if c0 =? c then x <- rd (m_val a) j ;; wr w i x else Ok w) w) vec.

(** ** compare *)

(** src/utils/compare/compare_crs.cpp:8-60 equal (operator== lines 66-74): each vequal reads
    get_nnz() elements, also of row_ptr *)
Definition crs_equal (a b : crs F) : res bool :=
  if negb (m_row a =? m_row b) then Ok false
  else if negb (m_col a =? m_col b) then Ok false
  else
    e1 <- vequalF (m_nnz a) (m_val a) (m_val b) ;;
    if negb e1 then Ok false else
    e2 <- vequalI (m_nnz a) (m_ci a) (m_ci b) ;;
    if negb e2 then Ok false else
    e3 <- vequalI (m_nnz a) (m_rp a) (m_rp b) ;;
    if negb e3 then Ok false else Ok true.

(** compare_crs.cpp:97-115 util::is_same_structure *)
Definition crs_same_structure (a b : crs F) : bool :=
  if negb (N.eqb (m_hash a) (m_hash b)) then false
  else (m_row a =? m_row b) && (m_col a =? m_col b).

(** compare_crs.cpp:123-136 util::is_same_size *)
Definition crs_same_size (a b : crs F) : bool := (m_row a =? m_row b) && (m_col a =? m_col b).

(** ** BLAS *)

(** src/blas/matrix/matvec/crs_matvec.hpp:8-114 (double) = 118-223 (float).
    The scalar factors [alpha], [beta] are not used by the OSS code path (lines 88-109). *)
Definition crs_matvec_core (alpha : F) (A : crs F) (x : list F) (beta : F) (y : list F)
  (transA : bool) : res (list F) :=
  (if transA then
     assert_ (m_row A =? length x) ;;; assert_ (m_col A =? length y)
   else
     assert_ (m_row A =? length y) ;;; assert_ (m_col A =? length x)) ;;;
  if transA then
    y <- for_ 0 (length y) (fun i y => wr y i f0) y ;;
    for_ 0 (m_row A) (fun i y =>
      lo <- rd (m_rp A) i ;; hi <- rd (m_rp A) (i + 1) ;;
      for_ lo hi (fun j y =>
        c <- rd (m_ci A) j ;; yc <- rd y c ;;
        v <- rd (m_val A) (m_first A + j) ;; xi <- rd x i ;;
        wr y c (fadd yc (fmul v xi))) y) y
  else
    for_ 0 (m_row A) (fun i y =>
      lo <- rd (m_rp A) i ;; hi <- rd (m_rp A) (i + 1) ;;
      ytmp <- for_ lo hi (fun j t =>
        v <- rd (m_val A) (m_first A + j) ;; c <- rd (m_ci A) j ;; xc <- rd x c ;;
        Ok (fadd t (fmul v xc))) f0 ;;
      wr y i ytmp) y.

(** src/blas/matrix/matvec/matvec_blas.cpp: matvec(A,x,y), matvec(a,A,x,b,y), matvec_T *)
Definition crs_matvec (A : crs F) (x y : list F) := crs_matvec_core f1 A x f0 y false.
Definition crs_matvec_ab (a : F) (A : crs F) (x : list F) (b : F) (y : list F) :=
  crs_matvec_core a A x b y false.
Definition crs_matvec_T (A : crs F) (x y : list F) := crs_matvec_core f1 A x f0 y true.

(** src/blas/matrix/mataddsub/crs_mataddsub.hpp:8-40 with internal::vadd / vsub:
    Cd[i] = Ad[i] op Bd[i], i < A.nnz, on begin() *)
Definition crs_matop (op : F -> F -> F) (A B C : crs F) : res (crs F) :=
  assert_ (crs_same_size A B && crs_same_size A C) ;;;
  assert_ (crs_same_structure A B && crs_same_structure A C) ;;;
  v <- for_ 0 (m_nnz A) (fun i v =>
         p <- rd (m_val A) (m_first A + i) ;; q <- rd (m_val B) (m_first B + i) ;;
         wr v (m_first C + i) (op p q)) (m_val C) ;;
  Ok (m_set_val C v).
Definition crs_matadd := crs_matop fadd.
Definition crs_matsub := crs_matop fsub.

(** src/blas/matrix/copy/crs_copy.hpp:7-20  blas::copy(A, C) *)
Definition crs_blas_copy (A C : crs F) : res (crs F) :=
  assert_ (crs_same_size A C) ;;; assert_ (crs_same_structure A C) ;;;
  v <- for_ 0 (m_nnz A) (fun i v => p <- rd (m_val A) (m_first A + i) ;; wr v (m_first C + i) p) (m_val C) ;;
  Ok (m_set_val C v).

(** src/blas/matrix/scal/crs_scal.hpp:7-15  scal(alpha, A) *)
Definition crs_scal (alpha : F) (A : crs F) : res (crs F) :=
  v <- for_ 0 (m_nnz A) (fun i v => p <- rd v (m_first A + i) ;; wr v (m_first A + i) (fmul p alpha)) (m_val A) ;;
  Ok (m_set_val A v).

(** src/blas/matrix/times/crs_times.hpp:9-22  times(alpha, A, C) *)
Definition crs_times (alpha : F) (A C : crs F) : res (crs F) :=
  assert_ (crs_same_structure A C) ;;;
  v <- for_ 0 (m_nnz A) (fun i v => p <- rd (m_val A) (m_first A + i) ;; wr v (m_first C + i) (fmul p alpha)) (m_val C) ;;
  Ok (m_set_val C v).

(** crs_times.hpp:25-64  times_row(A, x, C) *)
Definition crs_times_row (A : crs F) (x : list F) (C : crs F) : res (crs F) :=
  assert_ (crs_same_structure A C) ;;; assert_ (m_col A =? length x) ;;;
  v <- for_ 0 (m_row A) (fun i v =>
      lo <- rd (m_rp A) i ;; hi <- rd (m_rp A) (i + 1) ;;
      for_ lo hi (fun j v =>
        p <- rd (m_val A) (m_first A + j) ;; c <- rd (m_ci A) j ;; xc <- rd x c ;;
        wr v (m_first C + j) (fmul p xc)) v) (m_val C) ;;
  Ok (m_set_val C v).

(** crs_times.hpp:67-105  times_col(A, x, C) *)
Definition crs_times_col (A : crs F) (x : list F) (C : crs F) : res (crs F) :=
  assert_ (crs_same_structure A C) ;;; assert_ (m_row A =? length x) ;;;
  v <- for_ 0 (m_row A) (fun i v =>
      lo <- rd (m_rp A) i ;; hi <- rd (m_rp A) (i + 1) ;;
      for_ lo hi (fun j v =>
        p <- rd (m_val A) (m_first A + j) ;; xi <- rd x i ;;
        wr v (m_first C + j) (fmul p xi)) v) (m_val C) ;;
  Ok (m_set_val C v).

(** src/blas/matrix/times/crs_line_times.hpp:9-45  times_row(A, num, x, C) *)
Definition crs_times_row_line (A : crs F) (num : nat) (x : list F) (C : crs F) : res (crs F) :=
  assert_ (crs_same_structure A C) ;;; assert_ (m_col A =? length x) ;;; assert_ (num <=? m_row A) ;;;
  lo <- rd (m_rp A) num ;; hi <- rd (m_rp A) (num + 1) ;;
  v <- for_ lo hi (fun j v =>
        p <- rd (m_val A) (m_first A + j) ;; c <- rd (m_ci A) j ;; xc <- rd x c ;;
        wr v (m_first C + j) (fmul p xc)) (m_val C) ;;
  Ok (m_set_val C v).

(** crs_line_times.hpp:48-93  times_col(A, num, x, C) *)
Definition crs_times_col_line (A : crs F) (num : nat) (x : list F) (C : crs F) : res (crs F) :=
  assert_ (crs_same_structure A C) ;;; assert_ (m_row A =? length x) ;;; assert_ (num <=? m_col A) ;;;
  v <- for_ 0 (m_row A) (fun i v =>
      lo <- rd (m_rp A) i ;; hi <- rd (m_rp A) (i + 1) ;;
      for_ lo hi (fun j v =>
        c <- rd (m_ci A) j ;;
        if c =? num then
          p <- rd (m_val A) (m_first A + j) ;; xi <- rd x i ;; wr v (m_first C + j) (fmul p xi)
        else Ok v) v) (m_val C) ;;
  Ok (m_set_val C v).

(** src/blas/matrix/diag_op/crs_diag_op.hpp:8-43, 87-122, 166-201, 245-280 (add/sub/mul/div by a
    scalar): loop over all rows, on data() *)
Definition crs_diag_scalar (op : F -> F -> F) (A : crs F) (alpha : F) : res (crs F) :=
  v <- for_ 0 (m_row A) (fun i v =>
      lo <- rd (m_rp A) i ;; hi <- rd (m_rp A) (i + 1) ;;
      for_ lo hi (fun j v =>
        c <- rd (m_ci A) j ;;
        if i =? c then p <- rd v j ;; wr v j (op p alpha) else Ok v) v) (m_val A) ;;
  Ok (m_set_val A v).

(** crs_diag_op.hpp:46-84 etc. (by a vector): loop over min(row, col) rows *)
Definition crs_diag_vector (op : F -> F -> F) (A : crs F) (vec : list F) : res (crs F) :=
  let Len := if m_row A <? m_col A then m_row A else m_col A in
  assert_ (Len =? length vec) ;;;
  v <- for_ 0 Len (fun i v =>
      lo <- rd (m_rp A) i ;; hi <- rd (m_rp A) (i + 1) ;;
      for_ lo hi (fun j v =>
        c <- rd (m_ci A) j ;;
        if i =? c then p <- rd v j ;; q <- rd vec i ;; wr v j (op p q) else Ok v) v) (m_val A) ;;
  Ok (m_set_val A v).

(** ** CRS * Dense *)

(** src/blas/matrix/matmul/crs-dense_matmul.hpp:133-144 (double, scalar CPU) = 307-318 (float) *)
Definition crs_dense_matmul_scalar (a : F) (A : crs F) (B : dense F) (b : F) (C : dense F) : res (dense F) :=
  assert_ (m_col A =? d_row B) ;;; assert_ (m_row A =? d_row C) ;;; assert_ (d_col B =? d_col C) ;;;
  let M := m_row A in let N := d_col B in
  v <- for_ 0 N (fun j v =>
    for_ 0 M (fun i v =>
      lo <- rd (m_rp A) i ;; hi <- rd (m_rp A) (i + 1) ;;
      tmp <- for_ lo hi (fun k t =>
        p <- rd (m_val A) (m_first A + k) ;; c <- rd (m_ci A) k ;;
        q <- rd (d_val B) (d_first B + (N * c + j)) ;;
        Ok (fadd t (fmul p q))) f0 ;;
      old <- rd v (d_first C + (i * N + j)) ;;
      wr v (d_first C + (i * N + j)) (fadd (fmul a tmp) (fmul b old))) v) (d_val C) ;;
  Ok (d_set_val C v).

(** one SIMD step of [w] lanes (loadu B, loadu C, mul, add, storeu): all loads happen before
    the stores *)
Definition simd_step (w : nat) (Av : F) (Bd : list F) (BB : nat) (Cd : list F) (CC : nat) : res (list F) :=
  regs <- for_ 0 w (fun l regs =>
            q <- rd Bd (BB + l) ;; c <- rd Cd (CC + l) ;;
            Ok (regs ++ [fadd c (fmul Av q)])) [] ;;
  for_ 0 w (fun l Cd => r <- rd regs l ;; wr Cd (CC + l) r) Cd.

(** [for (; j < N - (w-1); j += w) step] for int j, N; returns the final j *)
Fixpoint simd_while (fuel w : nat) (N : nat) (step : nat -> list F -> res (list F)) (j : nat) (Cd : list F)
  : res (list F * nat) :=
  if j + w <=? N then
    match fuel with
    | 0 => NoFuel
    | S fuel' => Cd <- step j Cd ;; simd_while fuel' w N step (j + w) Cd
    end
  else Ok (Cd, j).

(** crs-dense_matmul.hpp:127-129 / 301-303 the scalar remainder *)
Definition simd_rest (a v : F) (Bd : list F) (Br : nat) (Cr j N : nat) (Cd : list F) : res (list F) :=
  for_ j N (fun j Cd => c <- rd Cd (Cr + j) ;; q <- rd Bd (Br + j) ;;
              wr Cd (Cr + j) (fadd c (fmul (fmul a v) q))) Cd.

(** the per-entry kernel of the double AVX path, lines 110-130 (vecL = 4) *)
Definition avx_entry_double (a v : F) (Bd : list F) (Br Cr N : nat) (Cd : list F) : res (list F) :=
  let Av := fmul a v in
  '(Cd, j) <- simd_while (S N) 4 N (fun j Cd => simd_step 4 Av Bd (Br + j) Cd (Cr + j)) 0 Cd ;;
  simd_rest a v Bd Br Cr j N Cd.

(** the per-entry kernel of the float AVX path, lines 257-303 (32 = 4 x 8, then 8, then 1) *)
Definition avx_entry_float (a v : F) (Bd : list F) (Br Cr N : nat) (Cd : list F) : res (list F) :=
  let Av := fmul a v in
  '(Cd, j) <- simd_while (S N) 32 N (fun j Cd =>
      Cd <- simd_step 8 Av Bd (Br + j) Cd (Cr + j) ;;
      Cd <- simd_step 8 Av Bd (Br + j + 8) Cd (Cr + j + 8) ;;
      Cd <- simd_step 8 Av Bd (Br + j + 16) Cd (Cr + j + 16) ;;
      simd_step 8 Av Bd (Br + j + 24) Cd (Cr + j + 24)) 0 Cd ;;
  '(Cd, j) <- simd_while (S N) 8 N (fun j Cd => simd_step 8 Av Bd (Br + j) Cd (Cr + j)) j Cd ;;
  simd_rest a v Bd Br Cr j N Cd.

(** crs-dense_matmul.hpp:97-131 (double) / 244-305 (float): C is scaled by b first, then every
    stored entry adds (a*value)*B[col][*] to a row of C *)
Definition crs_dense_matmul_avx (entry : F -> F -> list F -> nat -> nat -> nat -> list F -> res (list F))
  (a : F) (A : crs F) (B : dense F) (b : F) (C : dense F) : res (dense F) :=
  assert_ (m_col A =? d_row B) ;;; assert_ (m_row A =? d_row C) ;;; assert_ (d_col B =? d_col C) ;;;
  let M := m_row A in let N := d_col B in
  v <- for_ 0 (M * N) (fun i v => c <- rd v (d_first C + i) ;; wr v (d_first C + i) (fmul b c)) (d_val C) ;;
  v <- for_ 0 M (fun i v =>
      lo <- rd (m_rp A) i ;; hi <- rd (m_rp A) (i + 1) ;;
      for_ lo hi (fun k v =>
        c <- rd (m_ci A) k ;; p <- rd (m_val A) (m_first A + k) ;;
        entry a p (d_val B) (d_first B + N * c) (d_first C + i * N) N v) v) v ;;
  Ok (d_set_val C v).

End CrsModel.
