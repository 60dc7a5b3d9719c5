(** * DenseModel: matrix::Dense<Float> (model only, no proofs).

    Device memory is not in use ([get_device_mem_stat() == false]); logger calls have no
    effect on data and are modelled separately (LoggerModel.v).  OpenMP [parallel for]
    loops are written here in sequential order; ParProof.v justifies that for every
    interleaving. *)
From Verif Require Import Base Scalar.
Set Implicit Arguments.

(** include/monolish/common/monolish_dense.hpp:30-72 (private data members):
    rowN, colN, val (shared_ptr buffer, as a list of length alloc_nnz), first, val_nnz,
    alloc_nnz, val_create_flag.  gpu_status is omitted (always false). *)
Record dense (F : Type) := mkDense {
  d_row : nat; d_col : nat; d_val : list F; d_first : nat; d_nnz : nat;
  d_alloc : nat; d_own : bool }.
Arguments mkDense {F}.

Section DenseModel.
Context {F : Type} {SF : Scalar F}.

Definition d_set_val (d : dense F) (v : list F) : dense F :=
  mkDense (d_row d) (d_col d) v (d_first d) (d_nnz d) (d_alloc d) (d_own d).
Definition d_set_rc (d : dense F) (r c : nat) : dense F :=
  mkDense r c (d_val d) (d_first d) (d_nnz d) (d_alloc d) (d_own d).
Definition d_set_own (d : dense F) : dense F :=
  mkDense (d_row d) (d_col d) (d_val d) (d_first d) (d_nnz d) (d_alloc d) true.

(** default constructor, monolish_dense.hpp: Dense() : shape 0, no buffer *)
Definition dense_empty : dense F := mkDense 0 0 [] 0 0 0 true.

(** monolish_dense.hpp:632-659  resize(N, Val = 0) *)
Definition dense_resize (d : dense F) (N : nat) (Val : F) : res (dense F) :=
  if d_first d + N <? d_alloc d then
    v <- for_ (d_nnz d) N (fun i v => wr v (d_first d + i) Val) (d_val d) ;;
    Ok (mkDense (d_row d) (d_col d) v (d_first d) N (d_alloc d) (d_own d))
  else if d_own d then
    let copy_size := Nat.min (d_nnz d) N in
    tmp <- for_ 0 copy_size (fun i t => x <- rd (d_val d) i ;; wr t i x) (repeat f0 N) ;;
    tmp <- for_ copy_size N (fun i t => wr t i Val) tmp ;;
    Ok (mkDense (d_row d) (d_col d) tmp 0 N N true)
  else Throw.

(** src/utils/dense_constructor.cpp:12-21  Dense(M, N) (elements 0) *)
Definition dense_new (M N : nat) : res (dense F) :=
  dense_resize (d_set_rc dense_empty M N) (M * N) f0.

(** src/utils/dense_constructor.cpp:25-36  Dense(M, N, const T *value): copies M*N values *)
Definition dense_of_array (M N : nat) (value : list F) : res (dense F) :=
  d <- dense_new M N ;;
  v <- for_ 0 (d_nnz d) (fun i v => x <- rd value i ;; wr v (d_first d + i) x) (d_val d) ;;
  Ok (d_set_val d v).

(** src/utils/dense_constructor.cpp:42-53  Dense(M, N, std::vector value):
    copies value.size() values whatever M*N is *)
Definition dense_of_stdvector (M N : nat) (value : list F) : res (dense F) :=
  d <- dense_new M N ;;
  v <- for_ 0 (length value) (fun i v => x <- rd value i ;; wr v (d_first d + i) x) (d_val d) ;;
  Ok (d_set_val d v).

(** src/utils/dense_constructor.cpp:182-202  copy constructor *)
Definition dense_copy (m : dense F) : res (dense F) :=
  d <- dense_resize dense_empty (d_nnz m) f0 ;;
  v <- for_ 0 (d_nnz d) (fun i v => x <- rd (d_val m) (d_first m + i) ;; wr v i x) (d_val d) ;;
  Ok (mkDense (d_row m) (d_col m) v 0 (d_nnz d) (d_alloc d) true).

(** src/utils/at_insert_sort/at_insert_sort_dense.cpp:9-18  at(i) *)
Definition dense_at1 (d : dense F) (i : nat) : res F :=
  assert_ (i <? d_nnz d) ;;;
  assert_ (d_first d + i <? d_alloc d) ;;;
  rd (d_val d) (d_first d + i).

(** at_insert_sort_dense.cpp:22-31  at(i, j) *)
Definition dense_at (d : dense F) (i j : nat) : res F :=
  assert_ (i <? d_row d) ;;;
  assert_ (j <? d_col d) ;;;
  dense_at1 d (d_col d * i + j).

(** at_insert_sort_dense.cpp:36-45  insert(i, Val) *)
Definition dense_insert1 (d : dense F) (i : nat) (Val : F) : res (dense F) :=
  assert_ (i <? d_nnz d) ;;;
  assert_ (d_first d + i <? d_alloc d) ;;;
  v <- wr (d_val d) (d_first d + i) Val ;;
  Ok (d_set_val d v).

(** at_insert_sort_dense.cpp:49-59  insert(i, j, Val) *)
Definition dense_insert (d : dense F) (i j : nat) (Val : F) : res (dense F) :=
  assert_ (i <? d_row d) ;;;
  assert_ (j <? d_col d) ;;;
  dense_insert1 d (d_col d * i + j) Val.

(** [std::swap(data()[a], data()[b])] *)
Definition swap_at {A} (v : list A) (a b : nat) : res (list A) :=
  x <- rd v a ;; y <- rd v b ;; v <- wr v a y ;; wr v b x.

(** src/utils/transpose/transpose_dense.cpp:9-36  transpose() in place.
    Uses data() (not begin()): the view offset [first] is ignored, as in the code. *)
Definition dense_transpose (d : dense F) : res (dense F) :=
  let M := d_row d in
  let N := d_col d in
  if M =? N then
    v <- for_ 0 M (fun i v =>
           for_ (i + 1) M (fun j v => swap_at v (i * M + j) (j * M + i)) v) (d_val d) ;;
    Ok (d_set_val d v)
  else
    B <- dense_new N M ;;
    b <- for_ 0 (M * N) (fun n b =>
           let i := n / d_row d in
           let j := n mod d_row d in
           x <- rd (d_val d) (d_col d * j + i) ;; wr b n x) (d_val B) ;;
    v <- for_ 0 (M * N) (fun n v => x <- rd b n ;; wr v n x) (d_val d) ;;
    Ok (d_set_rc (d_set_val d v) N M).

(** transpose_dense.cpp:40-62  this.transpose(B), [this] and [B] distinct objects *)
Definition dense_transpose_from (d B : dense F) : res (dense F) :=
  let d1 := d_set_own (d_set_rc d (d_col B) (d_row B)) in
  d2 <- dense_resize d1 (d_row B * d_col B) f0 ;;
  v <- for_ 0 (d_row d2 * d_col d2) (fun n v =>
         let i := n / d_col d2 in
         let j := n mod d_col d2 in
         x <- rd (d_val B) (d_row d2 * j + i) ;; wr v n x) (d_val d2) ;;
  Ok (d_set_val d2 v).

(** transpose_dense.cpp:40-62  A.transpose(A): [B] is the object itself, so the assignments of lines 43-44
    and the loop's stores are seen by the reads through [B] *)
Definition dense_transpose_self (d : dense F) : res (dense F) :=
  let d0 := d_set_rc d (d_col d) (d_col d) in
  let d1 := d_set_own (d_set_rc d0 (d_row d0) (d_row d0)) in
  d2 <- dense_resize d1 (d_row d1 * d_col d1) f0 ;;
  v <- for_ 0 (d_row d2 * d_col d2) (fun n v =>
         let i := n / d_col d2 in
         let j := n mod d_col d2 in
         x <- rd v (d_row d2 * j + i) ;; wr v n x) (d_val d2) ;;
  Ok (d_set_val d2 v).

(** src/utils/reshape/reshape_dense.cpp:10-26 *)
Definition dense_reshape (d : dense F) (new_row new_col : nat) : res (dense F) :=
  require_ (d_row d * d_col d =? new_row * new_col) ;;;
  Ok (d_set_rc d new_row new_col).

(** internal::vequal on Float arrays (src/internal/arithmetic/double_arithmetic.cpp:277-305):
    reads N elements of both arrays *)
Definition vequalF (N : nat) (a y : list F) : res bool :=
  for_ 0 N (fun i ans => p <- rd y i ;; q <- rd a i ;;
            Ok (if negb (feqb p q) then false else ans)) true.

(** internal::vequal on int arrays (src/internal/arithmetic/integer_arithmetic.cpp:111-139) *)
Definition vequalI (N : nat) (a y : list nat) : res bool :=
  for_ 0 N (fun i ans => p <- rd y i ;; q <- rd a i ;;
            Ok (if negb (p =? q) then false else ans)) true.

(** src/utils/compare/compare_dense.cpp:10-41  equal / operator== (lines 47-55) *)
Definition dense_equal (a b : dense F) : res bool :=
  if negb (d_row a =? d_row b) then Ok false
  else if negb (d_col a =? d_col b) then Ok false
  else if negb (d_first a =? d_first b) then Ok false
  else vequalF (d_nnz a) (d_val a) (d_val b).

End DenseModel.
