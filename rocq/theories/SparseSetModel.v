(** * SparseSetModel: setting, filling, assigning, copying and comparing COO, CRS and tensor_COO objects, and the
    remaining constructors of COO, CRS, Dense and tensor_Dense (model only, no proofs).

    Simplifications: CPU build, no device memory (is_same_device_mem_stat is true); C++ int indices are natural numbers,
    an index that would become negative ([x - origin] with x < origin) is outside the model and reported as [UB]
    (it would be a negative index in the program). std::copy / internal::vcopy / internal::vbroadcast are sequential
    element loops. A monolish::vector argument is given by its buffer (data()), its offset and get_nnz(). *)
From Coq Require Import NArith.
From Verif Require Import Base Scalar DenseModel CooModel CrsModel TensorModel.
Set Implicit Arguments.

Section SparseSetModel.
Context {F : Type} {SF : Scalar F} {SC : Schedule}.

(** internal::vbroadcast (src/internal/arithmetic/*_arithmetic.cpp): dst[off + i] = v, i < N *)
Definition vbcastA {A} (N off : nat) (v : A) (dst : list A) : res (list A) :=
  for_ 0 N (fun i t => wr t (off + i) v) dst.

(** ** COO *)

(** src/utils/fill/fill_coo.cpp:9-17  fill(value) *)
Definition coo_fill (c : coo F) (value : F) : res (coo F) :=
  v <- vbcastA (c_nnz c) 0 value (c_val c) ;;
  Ok (mkCoo (c_row c) (c_col c) (c_ri c) (c_ci c) v (c_nnz c) (c_alloc c) (c_own c)).

(** src/utils/compare/compare_coo.cpp:133-146  util::is_same_size *)
Definition coo_same_size (a b : coo F) : bool := (c_row a =? c_row b) && (c_col a =? c_col b).

(** src/utils/copy/copy_coo.cpp:10-23  operator= : [this] = a *)
Definition coo_assign (a b : coo F) : res (coo F) :=
  assert_ (coo_same_size a b) ;;;
  s <- coo_same_structure a b ;;
  assert_ s ;;;
  v <- vcopyA (c_nnz a) (c_val b) (c_val a) ;;
  Ok (mkCoo (c_row a) (c_col a) (c_ri a) (c_ci a) v (c_nnz a) (c_alloc a) (c_own a)).

(** copy_coo.cpp:27-42  set_ptr(rN, cN, r, c, vsize, v) and 77-82 (std::vector v: vsize = v.size()) *)
Definition coo_set_ptr (a : coo F) (rN cN : nat) (r c : list nat) (v : list F) : res (coo F) :=
  a1 <- coo_resize (mkCoo (c_row a) (c_col a) r c (c_val a) (c_nnz a) (c_alloc a) (c_own a)) (length v) f0 ;;
  w <- vcopyA (c_nnz a1) v (c_val a1) ;;
  Ok (mkCoo rN cN (c_ri a1) (c_ci a1) w (c_nnz a1) (c_alloc a1) (c_own a1)).

(** copy_coo.cpp:52-67  set_ptr(rN, cN, r, c, vsize, v), one value for all entries *)
Definition coo_set_ptr_value (a : coo F) (rN cN : nat) (r c : list nat) (vsize : nat) (v : F) : res (coo F) :=
  a1 <- coo_resize (mkCoo (c_row a) (c_col a) r c (c_val a) (c_nnz a) (c_alloc a) (c_own a)) vsize f0 ;;
  w <- vbcastA (c_nnz a1) 0 v (c_val a1) ;;
  Ok (mkCoo rN cN (c_ri a1) (c_ci a1) w (c_nnz a1) (c_alloc a1) (c_own a1)).

(** src/utils/coo_constructor.cpp:39-63  COO(M, N, NNZ, row, col, value, origin) *)
Definition coo_of_arrays_origin (M N NNZ : nat) (row col : list nat) (value : list F) (origin : nat) : res (coo F) :=
  c <- coo_of_arrays M N NNZ row col value ;;
  rc <- for_ 0 NNZ (fun i '(ri, ci) =>
          x <- rd ri i ;; require_ (origin <=? x) ;;; ri <- wr ri i (x - origin) ;;
          y <- rd ci i ;; require_ (origin <=? y) ;;; ci <- wr ci i (y - origin) ;;
          Ok (ri, ci)) (c_ri c, c_ci c) ;;
  Ok (mkCoo (c_row c) (c_col c) (fst rc) (snd rc) (c_val c) (c_nnz c) (c_alloc c) (c_own c)).

(** coo_constructor.cpp:91-112  COO(coo, value): same structure, all values [value] *)
Definition coo_copy_value (m : coo F) (value : F) : res (coo F) :=
  ri <- vcopyA (c_nnz m) (c_ri m) (repeat 0 (c_nnz m)) ;;
  ci <- vcopyA (c_nnz m) (c_ci m) (repeat 0 (c_nnz m)) ;;
  a <- coo_resize (mkCoo (c_row m) (c_col m) ri ci [] 0 0 true) (c_nnz m) f0 ;;
  v <- vbcastA (c_nnz m) 0 value (c_val a) ;;
  Ok (mkCoo (c_row a) (c_col a) (c_ri a) (c_ci a) v (c_nnz a) (c_alloc a) true).

(** ** CRS *)

(** src/utils/fill/fill_crs.cpp:9-31  fill(value): writes data()[i], i < get_nnz() (the offset is not added) *)
Definition crs_fill (a : crs F) (value : F) : res (crs F) :=
  v <- vbcastA (m_nnz a) 0 value (m_val a) ;;
  Ok (mkCrs (m_row a) (m_col a) (m_rp a) (m_ci a) v (m_first a) (m_nnz a) (m_alloc a) (m_own a) (m_hash a)).

(** src/utils/copy/copy_crs.cpp:10-24  operator= : [this] = a *)
Definition crs_assign (a b : crs F) : res (crs F) :=
  assert_ (crs_same_size a b) ;;;
  assert_ (crs_same_structure a b) ;;;
  v <- for_ 0 (m_nnz a) (fun i t => x <- rd (m_val b) (m_first b + i) ;; wr t (m_first a + i) x) (m_val a) ;;
  Ok (mkCrs (m_row a) (m_col a) (m_rp a) (m_ci a) v (m_first a) (m_nnz a) (m_alloc a) true (m_hash a)).

(** copy_crs.cpp:28-46  set_ptr(M, N, rowptr, colind, vsize, value) and 85-92 (std::vector value: vsize = value.size()) *)
Definition crs_set_ptr (a : crs F) (M N : nat) (rowptr colind : list nat) (value : list F) : res (crs F) :=
  a1 <- crs_resize (mkCrs (m_row a) (m_col a) rowptr colind (m_val a) (m_first a) (m_nnz a) (m_alloc a) true (m_hash a))
                   (length value) f0 ;;
  v <- for_ 0 (m_nnz a1) (fun i t => x <- rd value i ;; wr t (m_first a1 + i) x) (m_val a1) ;;
  Ok (crs_compute_hash (mkCrs M N (m_rp a1) (m_ci a1) v (m_first a1) (m_nnz a1) (m_alloc a1) (m_own a1) (m_hash a1))).

(** copy_crs.cpp:57-75  set_ptr(M, N, rowptr, colind, vsize, value), one value for all entries *)
Definition crs_set_ptr_value (a : crs F) (M N : nat) (rowptr colind : list nat) (vsize : nat) (value : F) : res (crs F) :=
  a1 <- crs_resize (mkCrs (m_row a) (m_col a) rowptr colind (m_val a) (m_first a) (m_nnz a) (m_alloc a) true (m_hash a))
                   vsize f0 ;;
  v <- vbcastA (m_nnz a1) (m_first a1) value (m_val a1) ;;
  Ok (crs_compute_hash (mkCrs M N (m_rp a1) (m_ci a1) v (m_first a1) (m_nnz a1) (m_alloc a1) (m_own a1) (m_hash a1))).

(** src/utils/crs_constructor.cpp:10-21  CRS(M, N, NNZ): zeroed arrays, the hash is not computed *)
Definition crs_sized (M N NNZ : nat) : res (crs F) :=
  crs_resize (mkCrs M N (repeat 0 (M + 1)) (repeat 0 NNZ) [] 0 0 0 true 0%N) NNZ f0.

(** crs_constructor.cpp:51-73  CRS(M, N, NNZ, rowptr, colind, value, origin): only col_ind is shifted *)
Definition crs_of_arrays_origin (M N NNZ : nat) (rowptr colind : list nat) (value : list F) (origin : nat) : res (crs F) :=
  a <- crs_of_arrays M N NNZ rowptr colind value ;;
  ci <- for_ 0 NNZ (fun i ci => x <- rd ci i ;; require_ (origin <=? x) ;;; wr ci i (x - origin)) (m_ci a) ;;
  Ok (crs_compute_hash (mkCrs (m_row a) (m_col a) (m_rp a) ci (m_val a) (m_first a) (m_nnz a) (m_alloc a) (m_own a) (m_hash a))).

(** crs_constructor.cpp:82-98  CRS(M, N, std::vector rowptr, colind, value) *)
Definition crs_of_stdvectors (M N : nat) (rowptr colind : list nat) (value : list F) : res (crs F) :=
  crs_of_arrays M N (length value) rowptr colind value.

(** crs_constructor.cpp:109-140  CRS(M, N, rowptr, colind, monolish::vector value): copies value.size() elements from
    value.data() (the offset of [value] is not added) *)
Definition crs_of_vector (M N : nat) (rowptr colind : list nat) (buf : list F) (first nnz : nat) : res (crs F) :=
  crs_of_arrays M N nnz rowptr colind buf.

(** ** tensor_COO *)

(** src/utils/fill/fill_tensor_coo.cpp:10-18  fill(value) *)
Definition tc_fill (q : tcoo F) (value : F) : res (tcoo F) :=
  v <- vbcastA (q_nnz q) 0 value (q_val q) ;;
  Ok (mkTC (q_shape q) (q_index q) v (q_nnz q) (q_alloc q) (q_own q)).

(** src/utils/copy/copy_tensor_coo.cpp:28-42  set_ptr(shape, index, vsize, v) and 75-80 (vsize = v.size()) *)
Definition tc_set_ptr (q : tcoo F) (shape : list nat) (index : list (list nat)) (v : list F) : res (tcoo F) :=
  q1 <- tc_resize (mkTC shape index (q_val q) (q_nnz q) (q_alloc q) true) (length v) f0 ;;
  w <- vcopyA (q_nnz q1) v (q_val q1) ;;
  Ok (mkTC (q_shape q1) (q_index q1) w (q_nnz q1) (q_alloc q1) (q_own q1)).

(** copy_tensor_coo.cpp:52-66  set_ptr(shape, index, vsize, v), one value for all entries *)
Definition tc_set_ptr_value (q : tcoo F) (shape : list nat) (index : list (list nat)) (vsize : nat) (v : F) : res (tcoo F) :=
  q1 <- tc_resize (mkTC shape index (q_val q) (q_nnz q) (q_alloc q) true) vsize f0 ;;
  w <- vbcastA (q_nnz q1) 0 v (q_val q1) ;;
  Ok (mkTC (q_shape q1) (q_index q1) w (q_nnz q1) (q_alloc q1) (q_own q1)).

(** src/utils/tensor_coo_constructor.cpp:33-44  copy constructor *)
Definition tc_copy (q : tcoo F) : res (tcoo F) :=
  q1 <- tc_resize (mkTC (q_shape q) (q_index q) [] 0 0 true) (q_nnz q) f0 ;;
  w <- vcopyA (q_nnz q) (q_val q) (q_val q1) ;;
  Ok (mkTC (q_shape q1) (q_index q1) w (q_nnz q1) (q_alloc q1) (q_own q1)).

(** tensor_coo_constructor.cpp:49-61  tensor_COO(coo, value) *)
Definition tc_copy_value (q : tcoo F) (value : F) : res (tcoo F) :=
  q1 <- tc_resize (mkTC (q_shape q) (q_index q) [] 0 0 true) (q_nnz q) f0 ;;
  w <- vbcastA (q_nnz q) 0 value (q_val q1) ;;
  Ok (mkTC (q_shape q1) (q_index q1) w (q_nnz q1) (q_alloc q1) (q_own q1)).

(** src/utils/compare/compare_tensor_coo.cpp:43-53  the index comparison of equal(), entries i, i+1, ..., i+n-1 *)
Fixpoint tc_equal_loop (a b : tcoo F) (i n : nat) : res bool :=
  match n with
  | 0 => Ok true
  | S n' =>
      p <- rd (q_index a) i ;; r <- rd (q_index b) i ;;
      if negb (length p =? length r) then Ok false else
      e <- vequalI (length p) p r ;;
      if negb e then Ok false else tc_equal_loop a b (S i) n'
  end.
(** compare_tensor_coo.cpp:9-57  equal (shape comparison lines 15-24) and operator== (65-74) *)
Definition tc_equal (a b : tcoo F) : res bool :=
  if negb (length (q_shape a) =? length (q_shape b)) then Ok false
  else if negb (if list_eq_dec Nat.eq_dec (q_shape a) (q_shape b) then true else false) then Ok false
  else
    e <- vequalF (q_nnz a) (q_val a) (q_val b) ;;
    if negb e then Ok false else tc_equal_loop a b 0 (q_nnz a).

(** compare_tensor_coo.cpp:111-117  the loop of is_same_structure: only the length of A's index is used *)
Fixpoint tc_structure_loop (a b : tcoo F) (ans : bool) (i n : nat) : res bool :=
  match n with
  | 0 => Ok ans
  | S n' =>
      p <- rd (q_index a) i ;; r <- rd (q_index b) i ;;
      e <- vequalI (length p) p r ;;
      if negb e then Ok false else tc_structure_loop a b ans (S i) n'
  end.
(** compare_tensor_coo.cpp:98-121  util::is_same_structure *)
Definition tc_same_structure (a b : tcoo F) : res bool :=
  let ans := if list_eq_dec Nat.eq_dec (q_shape a) (q_shape b) then true else false in
  tc_structure_loop a b ans 0 (q_nnz a).

(** compare_tensor_coo.cpp:128-144  util::is_same_size *)
Definition tc_same_size (a b : tcoo F) : bool := if list_eq_dec Nat.eq_dec (q_shape a) (q_shape b) then true else false.

(** ** Dense *)

(** src/utils/dense_constructor.cpp:59-88  Dense(M, N, monolish::vector value): copies M*N elements from value.begin() *)
Definition dense_of_vector (M N : nat) (buf : list F) (first nnz : nat) : res (dense F) :=
  d <- dense_new M N ;;
  v <- for_ 0 (d_nnz d) (fun i t => x <- rd buf (first + i) ;; wr t (d_first d + i) x) (d_val d) ;;
  Ok (mkDense (d_row d) (d_col d) v (d_first d) (d_nnz d) (d_alloc d) (d_own d)).

(** dense_constructor.cpp:92-104  Dense(M, N, initializer_list): copies list.size() elements *)
Definition dense_of_list (M N : nat) (l : list F) : res (dense F) :=
  d <- dense_new M N ;;
  v <- for_ 0 (length l) (fun i t => x <- rd l i ;; wr t (d_first d + i) x) (d_val d) ;;
  Ok (mkDense (d_row d) (d_col d) v (d_first d) (d_nnz d) (d_alloc d) (d_own d)).

(** dense_constructor.cpp:110-129 and 135-153  Dense(M, N, min, max[, seed]): [draw k] is the k-th number the
    generator produces *)
Definition dense_of_stream (M N : nat) (draw : nat -> F) : res (dense F) :=
  d <- dense_new M N ;;
  v <- for_ 0 (d_nnz d) (fun i t => wr t (d_first d + i) (draw i)) (d_val d) ;;
  Ok (mkDense (d_row d) (d_col d) v (d_first d) (d_nnz d) (d_alloc d) (d_own d)).

(** dense_constructor.cpp:160-175  Dense(M, N, value) *)
Definition dense_of_value (M N : nat) (value : F) : res (dense F) :=
  d <- dense_new M N ;;
  v <- vbcastA (d_nnz d) (d_first d) value (d_val d) ;;
  Ok (mkDense (d_row d) (d_col d) v (d_first d) (d_nnz d) (d_alloc d) (d_own d)).

(** dense_constructor.cpp:207-228  Dense(mat, value) *)
Definition dense_copy_value (m : dense F) (value : F) : res (dense F) :=
  d <- dense_resize dense_empty (d_nnz m) f0 ;;
  v <- vbcastA (d_nnz d) 0 value (d_val d) ;;
  Ok (mkDense (d_row m) (d_col m) v 0 (d_nnz d) (d_alloc d) (d_own d)).

(** ** tensor_Dense *)

(** src/utils/convert/convert_tensor_dense.cpp:83-103  tensor_Dense::convert(vector): copies from vec.data() to data() *)
Definition td_convert_vector (t : tdense F) (buf : list F) (first nnz : nat) : res (tdense F) :=
  t1 <- td_resize (t_set_shape (t_set_own t) [nnz]) nnz f0 ;;
  v <- vcopyA (t_nnz t1) buf (t_val t1) ;;
  Ok (t_set_val t1 v).

(** src/utils/tensor_dense_constructor.cpp:149-166  tensor_Dense(tens, value) *)
Definition td_copy_value (s : tdense F) (value : F) : res (tdense F) :=
  t <- td_resize td_empty (t_nnz s) f0 ;;
  v <- vbcastA (t_nnz t) (t_first t) value (t_val t) ;;
  Ok (t_set_shape (t_set_val t v) (t_shape s)).

(** tensor_dense_constructor.cpp:75-97 and 100-121  tensor_Dense(shape, min, max[, seed]) *)
Definition td_of_stream (shape : list nat) (draw : nat -> F) : res (tdense F) :=
  t <- td_new shape ;;
  v <- for_ 0 (t_nnz t) (fun i w => wr w (t_first t + i) (draw i)) (t_val t) ;;
  Ok (t_set_val t v).

End SparseSetModel.
