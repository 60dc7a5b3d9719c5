(** * TensorModel: tensor::tensor_Dense<Float> and tensor::tensor_COO<Float> (model only, no proofs).

    Device memory not in use; logger calls modelled in LoggerModel.v.  Sizes and positions (size_t) are
    natural numbers: no wrap-around at 2^64.  The [int] arithmetic of the tensor_COO quicksort is
    modelled with its 32-bit range (see [int_of], [int_sub]). *)
From Verif Require Import Base Scalar DenseModel.
Set Implicit Arguments.

(** ** positions *)

(** monolish_tensor_dense.hpp:867-877, monolish_tensor_coo.hpp:531-541  get_index(std::vector pos):
    throws when the rank differs; ind = ind * shape[i] + pos[i].  No check of the coordinates. *)
Definition t_index (shape pos : list nat) : res nat :=
  require_ (length pos =? length shape) ;;;
  for_ 0 (length pos) (fun i ind =>
    s <- rd shape i ;; p <- rd pos i ;; Ok (ind * s + p)) 0.

(** monolish_tensor_dense.hpp:888-896, monolish_tensor_coo.hpp:552-560  get_index(size_t pos): from the
    last dimension down, ind[i] = pos % shape[i], pos /= shape[i].  Division by a zero dimension is
    undefined.  The C++ loop variable is rank-1-k. *)
Definition t_unindex (shape : list nat) (pos : nat) : res (list nat) :=
  '(ind, _) <- for_ 0 (length shape) (fun k st =>
     let '(ind, pos_copy) := st in
     let i := length shape - 1 - k in
     s <- rd shape i ;;
     if s =? 0 then UB else
     ind <- wr ind i (pos_copy mod s) ;;
     Ok (ind, pos_copy / s)) (repeat 0 (length shape), pos) ;;
  Ok ind.

(** monolish_tensor_dense.hpp:674-680  the product loop of resize(shape) *)
Definition t_count (shape : list nat) : nat := fold_left Nat.mul shape 1.

(** ** tensor_Dense *)

(** monolish_tensor_dense.hpp:17-49 (data members): shape, val (buffer of alloc_nnz values), first,
    val_nnz, alloc_nnz, val_create_flag *)
Record tdense (F : Type) := mkTD {
  t_shape : list nat; t_val : list F; t_first : nat; t_nnz : nat; t_alloc : nat; t_own : bool }.
Arguments mkTD {F}.

(** ** tensor_COO *)

(** monolish_tensor_coo.hpp:17-50 (data members): shape, index, val, val_nnz, alloc_nnz, val_create_flag *)
Record tcoo (F : Type) := mkTC {
  q_shape : list nat; q_index : list (list nat); q_val : list F; q_nnz : nat; q_alloc : nat; q_own : bool }.
Arguments mkTC {F}.

Section TensorModel.
Context {F : Type} {SF : Scalar F}.

Definition t_set_val (t : tdense F) (v : list F) : tdense F :=
  mkTD (t_shape t) v (t_first t) (t_nnz t) (t_alloc t) (t_own t).
Definition t_set_shape (t : tdense F) (s : list nat) : tdense F :=
  mkTD s (t_val t) (t_first t) (t_nnz t) (t_alloc t) (t_own t).
Definition t_set_own (t : tdense F) : tdense F :=
  mkTD (t_shape t) (t_val t) (t_first t) (t_nnz t) (t_alloc t) true.

(** monolish_tensor_dense.hpp:51  default constructor *)
Definition td_empty : tdense F := mkTD [] [] 0 0 0 true.

(** monolish_tensor_dense.hpp:642-670  resize(N, Val) *)
Definition td_resize (t : tdense F) (N : nat) (Val : F) : res (tdense F) :=
  if t_first t + N <? t_alloc t then
    v <- for_ (t_nnz t) N (fun i v => wr v (t_first t + i) Val) (t_val t) ;;
    Ok (mkTD (t_shape t) v (t_first t) N (t_alloc t) (t_own t))
  else if t_own t then
    let copy_size := Nat.min (t_nnz t) N in
    tmp <- for_ 0 copy_size (fun i w => x <- rd (t_val t) i ;; wr w i x) (repeat f0 N) ;;
    tmp <- for_ copy_size N (fun i w => wr w i Val) tmp ;;
    Ok (mkTD (t_shape t) tmp 0 N N true)
  else Throw.

(** monolish_tensor_dense.hpp:680-687  resize(shape, val) *)
Definition td_resize_shape (t : tdense F) (shape : list nat) (Val : F) : res (tdense F) :=
  t <- td_resize t (t_count shape) Val ;; Ok (t_set_shape t shape).

(** src/utils/tensor_dense_constructor.cpp:11-20  tensor_Dense(shape) *)
Definition td_new (shape : list nat) : res (tdense F) :=
  td_resize_shape (t_set_shape td_empty shape) shape f0.

(** src/utils/tensor_dense_constructor.cpp:39-50  tensor_Dense(shape, const T *value) *)
Definition td_of_array (shape : list nat) (value : list F) : res (tdense F) :=
  t <- td_new shape ;;
  v <- for_ 0 (t_nnz t) (fun i v => x <- rd value i ;; wr v (t_first t + i) x) (t_val t) ;;
  Ok (t_set_val t v).

(** src/utils/tensor_dense_constructor.cpp:57-68  tensor_Dense(shape, std::vector value): copies
    value.size() values whatever the shape is *)
Definition td_of_stdvector (shape : list nat) (value : list F) : res (tdense F) :=
  t <- td_new shape ;;
  v <- for_ 0 (length value) (fun i v => x <- rd value i ;; wr v (t_first t + i) x) (t_val t) ;;
  Ok (t_set_val t v).

(** src/utils/tensor_dense_constructor.cpp:126-144  copy constructor *)
Definition td_copy (s : tdense F) : res (tdense F) :=
  t <- td_resize td_empty (t_nnz s) f0 ;;
  v <- for_ 0 (t_nnz t) (fun i v => x <- rd (t_val s) (t_first s + i) ;; wr v (t_first t + i) x) (t_val t) ;;
  Ok (t_set_shape (t_set_val t v) (t_shape s)).

(** at_insert_sort_tensor_dense.cpp:10-19  at(size_t) *)
Definition td_at1 (t : tdense F) (pos : nat) : res F :=
  assert_ (pos <? t_nnz t) ;;;
  assert_ (t_first t + pos <? t_alloc t) ;;;
  rd (t_val t) (t_first t + pos).

(** at_insert_sort_tensor_dense.cpp:23-32  at(std::vector) *)
Definition td_at (t : tdense F) (pos : list nat) : res F :=
  ind <- t_index (t_shape t) pos ;; td_at1 t ind.

(** at_insert_sort_tensor_dense.cpp:36-46  insert(size_t, Val) *)
Definition td_insert1 (t : tdense F) (pos : nat) (Val : F) : res (tdense F) :=
  assert_ (pos <? t_nnz t) ;;;
  assert_ (t_first t + pos <? t_alloc t) ;;;
  v <- wr (t_val t) (t_first t + pos) Val ;;
  Ok (t_set_val t v).

(** at_insert_sort_tensor_dense.cpp:50-59  insert(std::vector, Val) *)
Definition td_insert (t : tdense F) (pos : list nat) (Val : F) : res (tdense F) :=
  ind <- t_index (t_shape t) pos ;; td_insert1 t ind Val.

(** reshape_tensor_dense.cpp:8-44  reshape(std::vector<int>).  The object is changed in place also when
    the call throws, so the model returns the object left behind and the outcome.
    Lines 16-23: the first loop; state (this->shape, minus, N). *)
Definition reshape_scan (old : list nat) (shape : list Z) : res (list nat * nat * nat) :=
  for_ 0 (length shape) (fun i st =>
    let '(sh, minus, N) := st in
    s <- rd shape i ;;
    if (s <? 0)%Z then Ok (sh, minus + 1, N)
    else sh <- wr sh i (Z.to_nat s) ;; Ok (sh, minus, N * Z.to_nat s))
  (vresize 0 old (length shape), 0, 1).
(** lines 29-36: the second loop; state (this->shape, M); get_nnz() / N with N = 0 is undefined *)
Definition reshape_infer (sh : list nat) (shape : list Z) (nnz N : nat) : res (list nat * nat) :=
  for_ 0 (length sh) (fun i st =>
    let '(sh, M) := st in
    s <- rd shape i ;;
    sh <- (if (s <? 0)%Z then (if N =? 0 then UB else wr sh i (nnz / N)) else Ok sh) ;;
    d <- rd sh i ;; Ok (sh, M * d)) (sh, 1).
Definition td_reshape (t : tdense F) (shape : list Z) : tdense F * res unit :=
  match reshape_scan (t_shape t) shape with
  | Ok (sh, minus, N) =>
      if 2 <=? minus then (t_set_shape t sh, Throw)
      else if minus =? 1 then
        match reshape_infer sh shape (t_nnz t) N with
        | Ok (sh, M) => (t_set_shape t sh, require_ (M =? t_nnz t))
        | Throw => (t, Throw) | Abort => (t, Abort) | UB => (t, UB) | NoFuel => (t, NoFuel)
        end
      else (t_set_shape t sh, require_ (N =? t_nnz t))
  | Throw => (t, Throw) | Abort => (t, Abort) | UB => (t, UB) | NoFuel => (t, NoFuel)
  end.

(** compare_tensor_dense.cpp:10-39  equal; operator== is 45-55, operator!= 61-71 its negation.
    Both buffers are compared from data(): offsets are ignored. *)
Definition td_equal (a b : tdense F) : res bool :=
  if negb (length (t_shape a) =? length (t_shape b)) then Ok false
  else if negb (forallb (fun i => nth i (t_shape a) 0 =? nth i (t_shape b) 0) (seq 0 (length (t_shape a))))
  then Ok false
  else vequalF (t_nnz a) (t_val a) (t_val b).

(** convert_tensor_dense.cpp:11-28  tensor_Dense::convert(tensor_Dense): copies from data() *)
Definition td_convert (t s : tdense F) : res (tdense F) :=
  t <- td_resize (t_set_own (t_set_shape t (t_shape s))) (t_nnz s) f0 ;;
  v <- for_ 0 (t_nnz t) (fun i v => x <- rd (t_val s) i ;; wr v i x) (t_val t) ;;
  Ok (t_set_val t v).

(** convert_tensor_dense.cpp:59-80  tensor_Dense::convert(matrix::Dense) *)
Definition td_convert_dense (t : tdense F) (d : dense F) : res (tdense F) :=
  t <- td_resize (t_set_shape (t_set_own t) [d_row d; d_col d]) (d_nnz d) f0 ;;
  v <- for_ 0 (t_nnz t) (fun i v => x <- rd (d_val d) i ;; wr v i x) (t_val t) ;;
  Ok (t_set_val t v).

(** convert_tensor_dense.cpp:35-53  tensor_Dense::convert(tensor_COO) *)
Definition td_convert_coo (t : tdense F) (q : tcoo F) : res (tdense F) :=
  t <- td_resize_shape (t_set_own (t_set_shape t (q_shape q))) (q_shape q) f0 ;;
  v <- for_ 0 (t_nnz t) (fun i v => wr v i f0) (t_val t) ;;
  for_ 0 (q_nnz q) (fun i t =>
    p <- rd (q_index q) i ;; x <- rd (q_val q) i ;; td_insert t p x) (t_set_val t v).

(** ** tensor_COO operations *)

(** monolish_tensor_coo.hpp:63-66  tensor_COO(shape) *)
Definition tc_new (shape : list nat) : tcoo F := mkTC shape [] [] 0 0 true.

(** monolish_tensor_coo.hpp:378-399  resize(N, Val) *)
Definition tc_resize (q : tcoo F) (N : nat) (Val : F) : res (tcoo F) :=
  if q_own q then
    let copy_size := Nat.min (q_nnz q) N in
    tmp <- for_ 0 copy_size (fun i w => x <- rd (q_val q) i ;; wr w i x) (repeat f0 N) ;;
    tmp <- for_ copy_size N (fun i w => wr w i Val) tmp ;;
    Ok (mkTC (q_shape q) (vresize [] (q_index q) N) tmp N N true)
  else Throw.

(** tensor_coo_constructor.cpp:11-24  tensor_COO(shape, index, const T *value) *)
Definition tc_of_arrays (shape : list nat) (index : list (list nat)) (value : list F) : res (tcoo F) :=
  q <- tc_resize (mkTC shape index [] 0 0 true) (length index) f0 ;;
  v <- for_ 0 (q_nnz q) (fun i w => x <- rd value i ;; wr w i x) (q_val q) ;;
  Ok (mkTC (q_shape q) (q_index q) v (q_nnz q) (q_alloc q) (q_own q)).

(** at_insert_sort_tensor_coo.cpp:15-20  backward search *)
Fixpoint tc_at_loop (q : tcoo F) (pos : list nat) (k : nat) : res F :=
  match k with
  | 0 => Ok f0
  | S k' => p <- rd (q_index q) k' ;;
            if list_eq_dec Nat.eq_dec p pos then rd (q_val q) k' else tc_at_loop q pos k'
  end.
(** at_insert_sort_tensor_coo.cpp:11-23  at(pos) *)
Definition tc_at (q : tcoo F) (pos : list nat) : res F := tc_at_loop q pos (q_nnz q).

(** at_insert_sort_tensor_coo.cpp:28-44  insert(pos, value) *)
Definition tc_insert (q : tcoo F) (pos : list nat) (value : F) : res (tcoo F) :=
  if q_own q then
    q <- (if q_alloc q <=? q_nnz q then
            let tmp := q_nnz q in
            q' <- tc_resize q (2 * q_alloc q + 1) f0 ;;
            Ok (mkTC (q_shape q') (q_index q') (q_val q') tmp (q_alloc q') (q_own q'))
          else Ok q) ;;
    ix <- wr (q_index q) (q_nnz q) pos ;;
    v <- wr (q_val q) (q_nnz q) value ;;
    Ok (mkTC (q_shape q) ix v (q_nnz q + 1) (q_alloc q) (q_own q))
  else Throw.

(** a sequence of insert calls *)
Fixpoint tc_inserts (q : tcoo F) (ops : list (list nat * F)) : res (tcoo F) :=
  match ops with
  | [] => Ok q
  | (p, v) :: ops' => q' <- tc_insert q p v ;; tc_inserts q' ops'
  end.

(** conversion of a size_t to int (32 bit), at_insert_sort_tensor_coo.cpp:62-64, 69, 73 *)
Definition int_of (n : nat) : Z := ((Z.of_nat n + 2 ^ 31) mod 2 ^ 32 - 2 ^ 31)%Z.
(** int subtraction: overflow is undefined *)
Definition int_sub (a b : Z) : res Z :=
  if ((- 2 ^ 31 <=? a - b) && (a - b <? 2 ^ 31))%Z then Ok (a - b)%Z else UB.

(** (int)get_index(index[a]) *)
Definition tc_key (shape : list nat) (ix : list (list nat)) (a : nat) : res Z :=
  p <- rd ix a ;; n <- t_index shape p ;; Ok (int_of n).

(** at_insert_sort_tensor_coo.cpp:67-70  advance l; [indl] is the cached key of position l *)
Fixpoint tc_scan_l (fuel : nat) (shape : list nat) (ix : list (list nat)) (indp : Z) (h l : nat) (indl : Z)
  : res (nat * Z) :=
  if l <? h then
    d <- int_sub indl indp ;;
    if (d <=? 0)%Z then
      match fuel with
      | 0 => NoFuel
      | S fuel' => k <- tc_key shape ix (l + 1) ;; tc_scan_l fuel' shape ix indp h (l + 1) k
      end
    else Ok (l, indl)
  else Ok (l, indl).

(** at_insert_sort_tensor_coo.cpp:71-74  lower h *)
Fixpoint tc_scan_h (fuel : nat) (shape : list nat) (ix : list (list nat)) (indp : Z) (l h : nat) (indh : Z)
  : res (nat * Z) :=
  if l <? h then
    d <- int_sub indh indp ;;
    if (d >=? 0)%Z then
      match fuel with
      | 0 => NoFuel
      | S fuel' => k <- tc_key shape ix (h - 1) ;; tc_scan_h fuel' shape ix indp l (h - 1) k
      end
    else Ok (h, indh)
  else Ok (h, indh).

(** at_insert_sort_tensor_coo.cpp:66-88  the do-while partition loop; the arrays are (index, data) *)
Fixpoint tc_part (fuel : nat) (shape : list nat) (s : list (list nat) * list F) (indp : Z)
    (l h : nat) (indl indh : Z) : res (list (list nat) * list F * nat) :=
  match fuel with
  | 0 => NoFuel
  | S fuel' =>
      '(l, indl) <- tc_scan_l (h - l) shape (fst s) indp h l indl ;;
      '(h, indh) <- tc_scan_h (h - l) shape (fst s) indp l h indh ;;
      if l <? h then
        ix <- swap_at (fst s) l h ;;
        v <- swap_at (snd s) l h ;;
        tc_part fuel' shape (ix, v) indp l h indh indl
      else Ok (s, l)
  end.

(** at_insert_sort_tensor_coo.cpp:52-103  _q_sort(lo, hi); the argument [hi1] is hi + 1 *)
Fixpoint tc_qsort (fuel : nat) (shape : list nat) (s : list (list nat) * list F) (lo hi1 : nat)
  : res (list (list nat) * list F) :=
  if hi1 <=? lo + 1 then Ok s
  else
    match fuel with
    | 0 => NoFuel
    | S fuel' =>
        let hi := hi1 - 1 in
        let p := hi in
        p1 <- rd (fst s) p ;; p3 <- rd (snd s) p ;;
        indl <- tc_key shape (fst s) lo ;;
        indh <- tc_key shape (fst s) hi ;;
        indp <- tc_key shape (fst s) p ;;
        '(ix, v, l) <- tc_part (S (hi - lo)) shape s indp lo hi indl indh ;;
        x <- rd ix l ;; ix <- wr ix p x ;; ix <- wr ix l p1 ;;
        x <- rd v l ;; v <- wr v p x ;; v <- wr v l p3 ;;
        if l - lo <? hi - l then
          s <- tc_qsort fuel' shape (ix, v) lo l ;;
          tc_qsort fuel' shape s (l + 1) hi1
        else
          s <- tc_qsort fuel' shape (ix, v) (l + 1) hi1 ;;
          tc_qsort fuel' shape s lo l
    end.

(** at_insert_sort_tensor_coo.cpp:119-127  merge loop; state ((index, data), k) *)
Definition tc_merge (s : list (list nat) * list F) (nnz : nat) : res (list (list nat) * list F * nat) :=
  for_ 1 nnz (fun i st =>
    let '(ix, v, k) := st in
    a <- rd ix k ;; b <- rd ix i ;;
    '(ix, k) <- (if list_eq_dec Nat.eq_dec a b then Ok (ix, k)
                 else ix <- wr ix (k + 1) b ;; Ok (ix, k + 1)) ;;
    x <- rd v i ;; v <- wr v k x ;;
    Ok (ix, v, k)) (s, 0).

(** at_insert_sort_tensor_coo.cpp:107-131  sort(merge) *)
Definition tc_sort (q : tcoo F) (merge : bool) : res (tcoo F) :=
  '(ix, v) <- tc_qsort (q_nnz q) (q_shape q) (q_index q, q_val q) 0 (q_nnz q) ;;
  if merge then
    '(ix, v, k) <- tc_merge (ix, v) (q_nnz q) ;;
    Ok (mkTC (q_shape q) ix v (k + 1) (q_alloc q) (q_own q))
  else Ok (mkTC (q_shape q) ix v (q_nnz q) (q_alloc q) (q_own q)).

(** convert_tensor_coo.cpp:50-75  tensor_COO::convert(tensor_Dense): the test reads dense.data()[i],
    the stored value is dense.begin()[i].  State (index, data, nz). *)
Definition tc_convert_dense (q : tcoo F) (t : tdense F) : res (tcoo F) :=
  q <- tc_resize (mkTC (t_shape t) (q_index q) (q_val q) (q_nnz q) (q_alloc q) true) (t_nnz t) f0 ;;
  '(ix, v, nz) <- for_ 0 (t_nnz t) (fun i st =>
     let '(ix, v, nz) := st in
     x <- rd (t_val t) i ;;
     if negb (feqb x f0) then
       pos <- t_unindex (q_shape q) i ;;
       y <- rd (t_val t) (t_first t + i) ;;
       v <- wr v nz y ;;
       Ok (ix ++ [pos], v, nz + 1)
     else Ok (ix, v, nz)) ([], q_val q, 0) ;;
  tc_resize (mkTC (q_shape q) ix v (q_nnz q) (q_alloc q) (q_own q)) nz f0.

(** tensor_coo_getvec.cpp:8-33  diag(vec); [vec] by its old contents.  std::min_element of an empty shape
    is dereferenced (undefined). *)
Definition tc_diag (q : tcoo F) (vec : list F) : res (list F) :=
  match q_shape q with
  | [] => UB
  | d :: ds =>
      assert_ (fold_left Nat.min ds d =? length vec) ;;;
      vec <- for_ 0 (length vec) (fun i w => wr w i f0) vec ;;
      for_ 0 (q_nnz q) (fun i w =>
        p <- rd (q_index q) i ;;
        flag <- for_ 1 (length p) (fun j flag =>
                  a <- rd p 0 ;; b <- rd p j ;; Ok (if negb (a =? b) then false else flag)) true ;;
        if (flag : bool) then a <- rd p 0 ;; x <- rd (q_val q) i ;; wr w a x else Ok w) vec
  end.

End TensorModel.
