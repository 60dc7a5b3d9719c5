(** * TensorCrsModel: tensor::tensor_CRS<Float>, its conversions and its products (model only, no proofs).

    A tensor_CRS of shape (s_0, ..., s_{r-1}) stores one CRS structure per slice (fixed first r-2 indices); the
    values of all slices lie one after the other in one buffer.
    Host memory; OSS configuration; logger omitted; OpenMP loops written sequentially.  The [int] counters
    (row, col, nsum, new_i, upper_d_tmp) and the elements of row_ptrs and col_inds are natural numbers: no wrap-around at 2^31.
    Distinct arguments of a call are distinct objects with distinct buffers. *)
From Coq Require Import NArith.
From Verif Require Import Base Scalar DenseModel CooModel CrsModel TensorModel TensorBlasModel.
Set Implicit Arguments.

(** include/monolish/common/monolish_tensor_crs.hpp:15-33 (data members).  structure_hash has no initialiser:
    [None] is an indeterminate value. *)
Record tcrs (F : Type) := mkTR {
  k_shape : list nat; k_rps : list (list nat); k_cis : list (list nat); k_val : list F;
  k_first : nat; k_nnz : nat; k_alloc : nat; k_own : bool; k_hash : option N }.
Arguments mkTR {F}.

Section TensorCrsModel.
Context {F : Type} {SF : Scalar F} {SC : Schedule}.

Definition k_set_val (t : tcrs F) (v : list F) : tcrs F :=
  mkTR (k_shape t) (k_rps t) (k_cis t) v (k_first t) (k_nnz t) (k_alloc t) (k_own t) (k_hash t).
Definition k_set_shape (t : tcrs F) (s : list nat) : tcrs F :=
  mkTR s (k_rps t) (k_cis t) (k_val t) (k_first t) (k_nnz t) (k_alloc t) (k_own t) (k_hash t).
Definition k_set_own (t : tcrs F) : tcrs F :=
  mkTR (k_shape t) (k_rps t) (k_cis t) (k_val t) (k_first t) (k_nnz t) (k_alloc t) true (k_hash t).
Definition k_set_st (t : tcrs F) (rps cis : list (list nat)) : tcrs F :=
  mkTR (k_shape t) rps cis (k_val t) (k_first t) (k_nnz t) (k_alloc t) (k_own t) (k_hash t).
Definition k_set_hash (t : tcrs F) (h : option N) : tcrs F :=
  mkTR (k_shape t) (k_rps t) (k_cis t) (k_val t) (k_first t) (k_nnz t) (k_alloc t) (k_own t) h.

(** monolish_tensor_crs.hpp:35-37 default constructor *)
Definition tr_empty : tcrs F := mkTR [] [] [] [] 0 0 0 true None.
(** monolish_tensor_crs.hpp:39-49 tensor_CRS(shape) *)
Definition tr_new (shape : list nat) : tcrs F := mkTR shape [] [] [] 0 0 0 true None.

(** monolish_tensor_crs.hpp:267-294  resize(N, Val) *)
Definition tr_resize (t : tcrs F) (N : nat) (Val : F) : res (tcrs F) :=
  if k_first t + N <? k_alloc t then
    v <- for_ (k_nnz t) N (fun i v => wr v (k_first t + i) Val) (k_val t) ;;
    Ok (mkTR (k_shape t) (k_rps t) (k_cis t) v (k_first t) N (k_alloc t) (k_own t) (k_hash t))
  else if k_own t then
    let copy_size := Nat.min (k_nnz t) N in
    tmp <- for_ 0 copy_size (fun i w => x <- rd (k_val t) i ;; wr w i x) (repeat f0 N) ;;
    tmp <- for_ copy_size N (fun i w => wr w i Val) tmp ;;
    Ok (mkTR (k_shape t) (k_rps t) (k_cis t) tmp 0 N N true (k_hash t))
  else Throw.

(** src/utils/hash.cpp:29-46 compute_hash: starts from 0; per slice the seed is shape[0] | hash; the arrays
    contribute only their sizes (see [vhash]) *)
Definition tr_compute_hash (t : tcrs F) : res (tcrs F) :=
  h <- for_ 0 (length (k_rps t)) (fun d h =>
         s0 <- rd (k_shape t) 0 ;; rp <- rd (k_rps t) d ;; ci <- rd (k_cis t) d ;;
         Ok (vhash (length ci) (vhash (length rp) (N.lor (N.of_nat s0) h)))) 0%N ;;
  Ok (k_set_hash t (Some h)).

(** ** conversions *)

(** src/utils/convert/convert_tensor_crs.cpp:41-44: the slice number of entry [p] *)
Definition slice_number (shape : list nat) (p : list nat) : res nat :=
  for_ 0 (length shape - 2) (fun d u => s <- rd shape d ;; x <- rd p d ;; Ok (u * s + x)) 0.

(** convert_tensor_crs.cpp:39-64: one iteration; state (row_ptrs, col_inds, c_rows, new_i, prev_upper_d_tmp) *)
Definition tr_step (shape : list nat) (index : list (list nat)) (i : nat)
    (st : list (list nat) * list (list nat) * list nat * nat * nat) :=
  let '(rps, cis, crows, new_i, prev) := st in
  let dim := length shape in
  p <- rd index i ;;
  u <- slice_number shape p ;;
  let new_i := if u =? prev then new_i else 0 in
  crow <- rd crows u ;;
  r <- rd p (dim - 2) ;;
  rp <- rd rps u ;;
  '(rp, crow) <- (if crow =? r then
                    rp <- wr rp (crow + 1) (new_i + 1) ;; Ok (rp, crow)
                  else
                    rp <- for_ (crow + 1) r (fun j rp => wr rp (j + 1) new_i) rp ;;
                    rp <- wr rp (r + 1) (new_i + 1) ;; Ok (rp, r)) ;;
  rps <- wr rps u rp ;;
  crows <- wr crows u crow ;;
  ci <- rd cis u ;;
  c <- rd p (dim - 1) ;;
  cis <- wr cis u (ci ++ [c]) ;;
  Ok (rps, cis, crows, new_i + 1, u).

(** convert_tensor_crs.cpp:10-68  convert(tensor_COO), [this] = t.  shape[dim - 2] is out of range for rank 1 (and 0). *)
Definition tr_convert_coo (t : tcrs F) (q : tcoo F) : res (tcrs F) :=
  let shape := q_shape q in
  t <- tr_resize (k_set_own (k_set_shape t shape)) (q_nnz q) f0 ;;
  let upper_d := t_count (firstn (length shape - 2) shape) in
  let rps := vresize [] (k_rps t) upper_d in
  let cis := vresize [] (k_cis t) upper_d in
  v <- for_ 0 (q_nnz q) (fun i v => x <- rd (q_val q) i ;; wr v (k_first t + i) x) (k_val t) ;;
  rps <- for_ 0 upper_d (fun ud rps =>
           if length shape <? 2 then UB else
           n <- rd shape (length shape - 2) ;; rp <- rd rps ud ;; wr rps ud (vresize 0 rp (n + 1))) rps ;;
  '(rps, cis, _, _, _) <- for_ 0 (q_nnz q) (tr_step shape (q_index q)) (rps, cis, repeat 0 upper_d, 0, 0) ;;
  tr_compute_hash (k_set_val (k_set_st t rps cis) v).

(** convert_tensor_crs.cpp:74-106  convert(tensor_CRS), [this] = t: every row_ptrs[i] gets one element more than
    the source has (line 84); [structure_hash] is copied *)
Definition tr_convert_tcrs (t m : tcrs F) : res (tcrs F) :=
  t <- tr_resize t (k_nnz m) f0 ;;
  let cis := vresize [] (k_cis t) (length (k_cis m)) in
  let rps := vresize [] (k_rps t) (length (k_rps m)) in
  '(rps, cis) <- for_ 0 (length (k_cis m)) (fun i st =>
      let '(rps, cis) := st in
      c <- rd cis i ;; cm <- rd (k_cis m) i ;; cis <- wr cis i (vresize 0 c (length cm)) ;;
      r <- rd rps i ;; rm <- rd (k_rps m) i ;; rps <- wr rps i (vresize 0 r (length rm + 1)) ;;
      Ok (rps, cis)) (rps, cis) ;;
  '(rps, cis) <- for_ 0 (length (k_cis m)) (fun i st =>
      let '(rps, cis) := st in
      rm <- rd (k_rps m) i ;; r <- rd rps i ;; r <- vcopyA (length rm) rm r ;; rps <- wr rps i r ;;
      cm <- rd (k_cis m) i ;; c <- rd cis i ;; c <- vcopyA (length cm) cm c ;; cis <- wr cis i c ;;
      Ok (rps, cis)) (rps, cis) ;;
  v <- vcopyA (k_nnz m) (k_val m) (k_val t) ;;
  Ok (mkTR (k_shape m) rps cis v (k_first t) (k_nnz t) (k_alloc t) true (k_hash m)).
(** monolish_tensor_crs.hpp:58-63  copy constructor *)
Definition tr_copy (m : tcrs F) : res (tcrs F) := tr_convert_tcrs tr_empty m.

(** convert_tensor_crs.cpp:112-136  convert(matrix::CRS), [this] = t *)
Definition tr_convert_crs (t : tcrs F) (a : crs F) : res (tcrs F) :=
  t <- tr_resize t (m_nnz a) f0 ;;
  let cis := vresize [] (k_cis t) 1 in
  let rps := vresize [] (k_rps t) 1 in
  c <- rd cis 0 ;; c <- vcopyA (length (m_ci a)) (m_ci a) (vresize 0 c (m_nnz a)) ;;
  r <- rd rps 0 ;; r <- vcopyA (length (m_rp a)) (m_rp a) (vresize 0 r (m_row a + 1)) ;;
  v <- vcopyA (m_nnz a) (m_val a) (k_val t) ;;
  Ok (mkTR [m_row a; m_col a] [r] [c] v (k_first t) (k_nnz t) (k_alloc t) true (Some (m_hash a))).

(** src/utils/tensor_crs_constructor.cpp:13-33  tensor_CRS(shape, row_ptrs, col_inds, value): structure_hash is
    not set *)
Definition tr_of_arrays (shape : list nat) (rps cis : list (list nat)) (value : list F) : res (tcrs F) :=
  t <- tr_resize (mkTR shape rps cis [] 0 0 0 true None) (fold_left (fun n c => n + length c) cis 0) f0 ;;
  v <- vcopyA (k_nnz t) value (k_val t) ;;
  Ok (k_set_val t v).
(** src/utils/copy/copy_tensor_crs.cpp:32-51, 97-107  set_ptr(shape, row_ptrs, col_inds, value), [this] = t *)
Definition tr_set_ptr (t : tcrs F) (shape : list nat) (rps cis : list (list nat)) (value : list F) : res (tcrs F) :=
  t <- tr_resize (k_set_own (k_set_st t rps cis)) (length value) f0 ;;
  v <- for_ 0 (k_nnz t) (fun i v => x <- rd value i ;; wr v (k_first t + i) x) (k_val t) ;;
  tr_compute_hash (k_set_shape (k_set_val t v) shape).

(** ** comparison *)

(** src/utils/compare/compare_tensor_crs.cpp:148-169 util::is_same_size *)
Definition tr_same_size (a b : tcrs F) : bool := if list_eq_dec Nat.eq_dec (k_shape a) (k_shape b) then true else false.
(** compare_tensor_crs.cpp:113-140 util::is_same_structure; using an indeterminate hash is undefined *)
Definition tr_same_structure (a b : tcrs F) : res bool :=
  if tr_same_size a b then
    match k_hash a, k_hash b with
    | Some ha, Some hb => Ok (N.eqb ha hb)
    | _, _ => UB
    end
  else Ok false.

(** compare_tensor_crs.cpp:52-72: the loops over the slices of [this]; element counts are those of [this] *)
Definition tr_equal_st (a b : list (list nat)) : res bool :=
  for_ 0 (length a) (fun i acc =>
    if (acc : bool) then x <- rd a i ;; y <- rd b i ;; vequalI (length x) x y else Ok acc) true.
(** compare_tensor_crs.cpp:10-76 equal (operator== 83-92); host memory, lines 51-72: from data() *)
Definition tr_equal (a b : tcrs F) : res bool :=
  if tr_same_size a b then
    e <- vequalF (k_nnz a) (k_val a) (k_val b) ;;
    if negb e then Ok false else
    e <- tr_equal_st (k_cis a) (k_cis b) ;;
    if negb e then Ok false else tr_equal_st (k_rps a) (k_rps b)
  else Ok false.

(** ** element-wise operations *)

(** internal loops Cd[i] = g Ad[i], i < A.get_nnz(), on begin() *)
Definition tr_map1 (g : F -> F) (A C : tcrs F) : res (tcrs F) :=
  v <- for_ 0 (k_nnz A) (fun i v => p <- rd (k_val A) (k_first A + i) ;; wr v (k_first C + i) (g p)) (k_val C) ;;
  Ok (k_set_val C v).
(** src/blas/tensor/times/tensor_crs_times.hpp:9-21  times(alpha, A, C) *)
Definition tr_times (alpha : F) (A C : tcrs F) : res (tcrs F) :=
  s <- tr_same_structure A C ;; assert_ s ;;; tr_map1 (fun p => fmul p alpha) A C.
(** src/blas/tensor/copy/tensor_crs_copy.hpp:8-20  copy(A, C); copy_tensor_crs.cpp:11-27 operator= *)
Definition tr_blas_copy (A C : tcrs F) : res (tcrs F) :=
  assert_ (tr_same_size A C) ;;; s <- tr_same_structure A C ;; assert_ s ;;; tr_map1 (fun p => p) A C.
(** src/blas/tensor/scal/tensor_crs_scal.hpp:7-15  tscal(alpha, A) *)
Definition tr_scal (alpha : F) (A : tcrs F) : res (tcrs F) :=
  v <- for_ 0 (k_nnz A) (fun i v => p <- rd v (k_first A + i) ;; wr v (k_first A + i) (fmul p alpha)) (k_val A) ;;
  Ok (k_set_val A v).
(** src/utils/fill/fill_tensor_crs.cpp:9-31  fill(value): on data() *)
Definition tr_fill (A : tcrs F) (value : F) : res (tcrs F) :=
  v <- for_ 0 (k_nnz A) (fun i v => wr v i value) (k_val A) ;; Ok (k_set_val A v).
(** src/blas/tensor/tensaddsub/tensor_crs_tensaddsub.hpp:8-22 (add), 24-38 (sub) *)
Definition tr_tensop (op : F -> F -> F) (A B C : tcrs F) : res (tcrs F) :=
  assert_ (tr_same_size A B && tr_same_size A C) ;;;
  s <- tr_same_structure A B ;; s' <- (if (s : bool) then tr_same_structure A C else Ok false) ;; assert_ s' ;;;
  v <- for_ 0 (k_nnz A) (fun i v =>
         p <- rd (k_val A) (k_first A + i) ;; q <- rd (k_val B) (k_first B + i) ;;
         wr v (k_first C + i) (op p q)) (k_val C) ;;
  Ok (k_set_val C v).

(** tensor_crs_times.hpp:24-72  times_row(A, x, C) *)
Definition tr_times_row (A : tcrs F) (x : list F) (C : tcrs F) : res (tcrs F) :=
  s <- tr_same_structure A C ;; assert_ s ;;;
  col <- rd (k_shape A) (length (k_shape A) - 1) ;;
  assert_ (col =? length x) ;;;
  '(v, _) <- for_ 0 (length (k_rps A)) (fun d st =>
      let '(v, nsum) := st in
      rp <- rd (k_rps A) d ;; ci <- rd (k_cis A) d ;;
      v <- for_ 0 (length rp - 1) (fun i v =>
             lo <- rd rp i ;; hi <- rd rp (i + 1) ;;
             for_ lo hi (fun j v =>
               p <- rd (k_val A) (k_first A + (j + nsum)) ;; c <- rd ci j ;; xc <- rd x c ;;
               wr v (k_first C + (j + nsum)) (fmul p xc)) v) v ;;
      Ok (v, nsum + length ci)) (k_val C, 0) ;;
  Ok (k_set_val C v).

(** ** products *)

(** shape[size-2] and shape[size-1]; undefined below rank 2 *)
Definition last_two (s : list nat) : res (nat * nat) :=
  if length s <? 2 then UB else
  r <- rd s (length s - 2) ;; c <- rd s (length s - 1) ;; Ok (r, c).

(** the matrix of slice [d] (tensvec/tensor_crs_tensvec.hpp:30-40, tensmat/tensor_crs-dense_tensmat.hpp:33-43,
    tensmul/tensor_crs-tensor_dense_tensmul.hpp:43-53): CRS(row, col, row_ptrs[d], col_inds[d], Aval) with zero
    values, then the values of the slice are copied in *)
Definition slice_matrix (A : tcrs F) (row col d nsum : nat) : res (crs F) :=
  rp <- rd (k_rps A) d ;; ci <- rd (k_cis A) d ;;
  a <- crs_of_arrays row col (length ci) rp ci (repeat f0 (length ci)) ;;
  v <- for_ 0 (length ci) (fun i v => x <- rd (k_val A) (k_first A + (nsum + i)) ;; wr v (m_first a + i) x) (m_val a) ;;
  Ok (m_set_val a v).

(** copy [n] values from C.begin() + off into a fresh array and back *)
Definition chunk_out (C : tdense F) (v : list F) (off n : nat) : res (list F) :=
  for_ 0 n (fun i w => x <- rd v (t_first C + (off + i)) ;; wr w i x) (repeat f0 n).
Definition chunk_in (C : tdense F) (v : list F) (off n : nat) (w : list F) : res (list F) :=
  for_ 0 n (fun i v => x <- rd w i ;; wr v (t_first C + (off + i)) x) v.

(** tensor_crs_tensvec.hpp:9-51 (double; float 54-96): tensvec(a, A, x, b, C) *)
Definition tr_tensvec_ab (a : F) (A : tcrs F) (x : list F) (b : F) (C : tdense F) : res (tdense F) :=
  '(row, col) <- last_two (k_shape A) ;;
  assert_ (col =? length x) ;;;
  assert_ (if list_eq_dec Nat.eq_dec (k_shape A) (t_shape C ++ [col]) then true else false) ;;;
  '(v, _) <- for_ 0 (length (k_rps A)) (fun d st =>
      let '(v, nsum) := st in
      m <- slice_matrix A row col d nsum ;;
      cv <- chunk_out C v (d * row) row ;;
      cv <- crs_matvec_ab a m x b cv ;;
      ci <- rd (k_cis A) d ;;
      v <- chunk_in C v (d * row) row cv ;;
      Ok (v, nsum + length ci)) (t_val C, 0) ;;
  Ok (t_set_val C v).
(** tensvec_blas.cpp:1372-1375 *)
Definition tr_tensvec (A : tcrs F) (x : list F) (C : tdense F) := tr_tensvec_ab f1 A x f0 C.

(** which compiled variant of CRS*Dense is used (crs-dense_matmul.hpp) *)
Definition matmul_variant := F -> crs F -> dense F -> F -> dense F -> res (dense F).

(** tensor_crs-dense_tensmat.hpp:10-57 (double; float 60-101): tensmat(a, A, B, b, C) *)
Definition tr_tensmat_ab (mul : matmul_variant) (a : F) (A : tcrs F) (B : dense F) (b : F) (C : tdense F)
  : res (tdense F) :=
  '(row, col) <- last_two (k_shape A) ;;
  assert_ (col =? d_row B) ;;;
  clast <- rd (t_shape C) (length (t_shape C) - 1) ;;
  assert_ (d_col B =? clast) ;;;
  assert_ (length (k_shape A) =? length (t_shape C)) ;;;
  assert_ (if list_eq_dec Nat.eq_dec (firstn (length (k_shape A) - 1) (k_shape A) ++ [clast]) (t_shape C)
           then true else false) ;;;
  let n := row * d_col B in
  '(v, _) <- for_ 0 (length (k_rps A)) (fun d st =>
      let '(v, nsum) := st in
      m <- slice_matrix A row col d nsum ;;
      Cmat <- dense_of_stdvector row (d_col B) (repeat f0 n) ;;
      cv <- chunk_out C v (d * row * d_col B) n ;;
      Cmat <- mul a m B b (d_set_val Cmat cv) ;;
      v <- chunk_in C v (d * row * d_col B) n (d_val Cmat) ;;
      ci <- rd (k_cis A) d ;;
      Ok (v, nsum + length ci)) (t_val C, 0) ;;
  Ok (t_set_val C v).
Definition tr_tensmat (mul : matmul_variant) (A : tcrs F) (B : dense F) (C : tdense F) :=
  tr_tensmat_ab mul f1 A B f0 C.

(** a tensor_Dense moved into a Dense: same buffer and offset (move_dense.cpp:125-159) *)
Definition as_dense (t : tdense F) (rowN colN : Z) : res (dense F) :=
  '(r, c) <- move_dims (t_nnz t) rowN colN ;;
  Ok (mkDense r c (t_val t) (t_first t) (t_nnz t) (t_alloc t) (t_own t)).

(** mattens/crs-tensor_dense_mattens.hpp:11-25 (double; float 28-41): mattens(a, A, B, b, C) for a CRS matrix A *)
Definition crs_mattens_ab (mul : matmul_variant) (a : F) (A : crs F) (B : tdense F) (b : F) (C : tdense F)
  : res (tdense F) :=
  b0 <- rd (t_shape B) 0 ;;
  Bmat <- as_dense B (int_of b0) (-1) ;;
  Cmat <- as_dense C (int_of (m_row A)) (int_of (d_col Bmat)) ;;
  Cmat <- mul a A Bmat b Cmat ;;
  Ok (t_set_val C (d_val Cmat)).

(** tensmul/tensor_crs-tensor_dense_tensmul.hpp:10-67 (double; float 70-126): tensmul(a, A, B, b, C) *)
Definition tr_tensmul_ab (mul : matmul_variant) (a : F) (A : tcrs F) (B : tdense F) (b : F) (C : tdense F)
  : res (tdense F) :=
  '(row, col) <- last_two (k_shape A) ;;
  b0 <- rd (t_shape B) 0 ;;
  assert_ (col =? b0) ;;;
  assert_ (if list_eq_dec Nat.eq_dec (firstn (length (k_shape A) - 1) (k_shape A) ++ tl (t_shape B)) (t_shape C)
           then true else false) ;;;
  let sh := row :: tl (t_shape B) in
  let n := t_count sh in
  '(v, _) <- for_ 0 (length (k_rps A)) (fun d st =>
      let '(v, nsum) := st in
      m <- slice_matrix A row col d nsum ;;
      Cmat <- td_of_stdvector sh (repeat f0 n) ;;
      cv <- chunk_out C v (d * n) n ;;
      Cmat <- crs_mattens_ab mul a m B b (t_set_val Cmat cv) ;;
      v <- chunk_in C v (d * n) n (t_val Cmat) ;;
      ci <- rd (k_cis A) d ;;
      Ok (v, nsum + length ci)) (t_val C, 0) ;;
  Ok (t_set_val C v).
Definition tr_tensmul (mul : matmul_variant) (A : tcrs F) (B C : tdense F) := tr_tensmul_ab mul f1 A B f0 C.

End TensorCrsModel.
