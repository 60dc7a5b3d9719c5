(** * CooModel: matrix::COO<Float> (model only, no proofs).

    Row/column numbers (C++ int) are natural numbers; a COO matrix with negative
    indices is outside the model. *)
From Verif Require Import Base Scalar DenseModel.
Set Implicit Arguments.

(** include/monolish/common/monolish_coo.hpp (data members): rowN, colN, row_index,
    col_index (std::vector<int>), val (buffer), val_nnz, alloc_nnz, val_create_flag *)
Record coo (F : Type) := mkCoo {
  c_row : nat; c_col : nat;
  c_ri : list nat; c_ci : list nat; c_val : list F;
  c_nnz : nat; c_alloc : nat; c_own : bool }.
Arguments mkCoo {F}.

Section CooModel.
Context {F : Type} {SF : Scalar F}.

(** monolish_coo.hpp:118-122  COO(M, N) *)
Definition coo_new (M N : nat) : coo F := mkCoo M N [] [] [] 0 0 true.

(** monolish_coo.hpp:406-428  resize(N, Val) ; the two fill loops over the fresh buffer *)
Definition coo_resize (c : coo F) (N : nat) (Val : F) : res (coo F) :=
  if c_own c then
    let copy_size := Nat.min (c_nnz c) N in
    tmp <- for_ 0 copy_size (fun i t => x <- rd (c_val c) i ;; wr t i x) (repeat f0 N) ;;
    tmp <- for_ copy_size N (fun i t => wr t i Val) tmp ;;
    Ok (mkCoo (c_row c) (c_col c) (vresize 0 (c_ri c) N) (vresize 0 (c_ci c) N)
              tmp N N true)
  else Throw.

(** src/utils/coo_constructor.cpp:14-31  COO(M, N, NNZ, row*, col*, value* ) *)
Definition coo_of_arrays (M N NNZ : nat) (row col : list nat) (value : list F)
  : res (coo F) :=
  let c := mkCoo M N (repeat 0 NNZ) (repeat 0 NNZ) [] 0 0 true in
  c <- coo_resize c NNZ f0 ;;
  ri <- for_ 0 NNZ (fun i l => x <- rd row i ;; wr l i x) (c_ri c) ;;
  ci <- for_ 0 NNZ (fun i l => x <- rd col i ;; wr l i x) (c_ci c) ;;
  v <- for_ 0 NNZ (fun i l => x <- rd value i ;; wr l i x) (c_val c) ;;
  Ok (mkCoo M N ri ci v (c_nnz c) (c_alloc c) true).

(** src/utils/coo_constructor.cpp:70-86  copy constructor *)
Definition coo_copy (m : coo F) : res (coo F) :=
  coo_of_arrays (c_row m) (c_col m) (c_nnz m) (c_ri m) (c_ci m) (c_val m).

(** at_insert_sort_coo.cpp:16-23  the backward search loop of at() *)
Fixpoint coo_at_loop (c : coo F) (i j k : nat) : res F :=
  match k with
  | 0 => Ok f0
  | S k' =>
      r <- rd (c_ri c) k' ;;
      if r =? i then
        q <- rd (c_ci c) k' ;;
        if q =? j then rd (c_val c) k' else coo_at_loop c i j k'
      else coo_at_loop c i j k'
  end.

(** at_insert_sort_coo.cpp:9-24  at(i, j) *)
Definition coo_at (c : coo F) (i j : nat) : res F :=
  assert_ (i <=? c_row c) ;;;
  assert_ (j <=? c_col c) ;;;
  coo_at_loop c i j (c_nnz c).

(** at_insert_sort_coo.cpp:30-51  insert(m, n, value) *)
Definition coo_insert (c : coo F) (m n : nat) (value : F) : res (coo F) :=
  if c_own c then
    assert_ (m <=? c_row c) ;;;
    assert_ (n <=? c_col c) ;;;
    c <- (if c_alloc c <=? c_nnz c then
            let tmp := c_nnz c in
            c' <- coo_resize c (2 * c_alloc c + 1) f0 ;;
            Ok (mkCoo (c_row c') (c_col c') (c_ri c') (c_ci c') (c_val c')
                      tmp (c_alloc c') (c_own c'))
          else Ok c) ;;
    ri <- wr (c_ri c) (c_nnz c) m ;;
    ci <- wr (c_ci c) (c_nnz c) n ;;
    v <- wr (c_val c) (c_nnz c) value ;;
    Ok (mkCoo (c_row c) (c_col c) ri ci v (c_nnz c + 1) (c_alloc c) (c_own c))
  else Throw.

(** a sequence of insert calls *)
Fixpoint coo_inserts (c : coo F) (ops : list (nat * nat * F)) : res (coo F) :=
  match ops with
  | [] => Ok c
  | (m, n, v) :: ops' => c' <- coo_insert c m n v ;; coo_inserts c' ops'
  end.

(** ** sort *)

(** the three parallel arrays the quicksort works on *)
Definition arr3 : Type := (list nat * list nat * list F)%type.

(** at_insert_sort_coo.cpp:73-75 / 78-80: the comparison value of position [a] with
    position [p]:  row[a] != row[p] ? row[a]-row[p] : col[a]-col[p] *)
Definition coo_cmp (s : arr3) (a p : nat) : res Z :=
  let '(ri, ci, _) := s in
  ra <- rd ri a ;; rp <- rd ri p ;;
  if negb (ra =? rp) then Ok (Z.of_nat ra - Z.of_nat rp)%Z
  else ca <- rd ci a ;; cp <- rd ci p ;; Ok (Z.of_nat ca - Z.of_nat cp)%Z.

(** at_insert_sort_coo.cpp:73-77  first inner while: advance l *)
Fixpoint coo_scan_l (fuel : nat) (s : arr3) (p h l : nat) : res nat :=
  if l <? h then
    d <- coo_cmp s l p ;;
    if (d <=? 0)%Z then
      match fuel with 0 => NoFuel | S fuel' => coo_scan_l fuel' s p h (l + 1) end
    else Ok l
  else Ok l.

(** at_insert_sort_coo.cpp:78-82  second inner while: lower h *)
Fixpoint coo_scan_h (fuel : nat) (s : arr3) (p l h : nat) : res nat :=
  if l <? h then
    d <- coo_cmp s h p ;;
    if (d >=? 0)%Z then
      match fuel with 0 => NoFuel | S fuel' => coo_scan_h fuel' s p l (h - 1) end
    else Ok h
  else Ok h.

(** at_insert_sort_coo.cpp:84-94  swap entries l and h in the three arrays *)
Definition coo_swap3 (s : arr3) (l h : nat) : res arr3 :=
  let '(ri, ci, v) := s in
  ri <- swap_at ri l h ;; ci <- swap_at ci l h ;; v <- swap_at v l h ;; Ok (ri, ci, v).

(** at_insert_sort_coo.cpp:72-96  the do-while partition loop *)
Fixpoint coo_part (fuel : nat) (s : arr3) (p l h : nat) : res (arr3 * nat) :=
  match fuel with
  | 0 => NoFuel
  | S fuel' =>
      l <- coo_scan_l (h - l) s p h l ;;
      h <- coo_scan_h (h - l) s p l h ;;
      if l <? h then
        s <- coo_swap3 s l h ;;
        coo_part fuel' s p l h
      else Ok (s, l)
  end.

(** at_insert_sort_coo.cpp:59-115  _q_sort(lo, hi).  The argument [hi1] is hi + 1
    (the C++ calls _q_sort(0, val_nnz - 1) and _q_sort(lo, l - 1) may pass hi = -1,
    resp. lo - 1). *)
Fixpoint coo_qsort (fuel : nat) (s : arr3) (lo hi1 : nat) : res arr3 :=
  if hi1 <=? lo + 1 then Ok s
  else
    match fuel with
    | 0 => NoFuel
    | S fuel' =>
        let hi := hi1 - 1 in
        let p := hi in
        let '(ri, ci, v) := s in
        p1 <- rd ri p ;; p2 <- rd ci p ;; p3 <- rd v p ;;
        '(s', l) <- coo_part (S (hi - lo)) s p lo hi ;;
        let '(ri, ci, v) := s' in
        x <- rd ri l ;; ri <- wr ri p x ;; ri <- wr ri l p1 ;;
        x <- rd ci l ;; ci <- wr ci p x ;; ci <- wr ci l p2 ;;
        x <- rd v l ;; v <- wr v p x ;; v <- wr v l p3 ;;
        if l - lo <? hi - l then
          s <- coo_qsort fuel' (ri, ci, v) lo l ;;
          coo_qsort fuel' s (l + 1) hi1
        else
          s <- coo_qsort fuel' (ri, ci, v) (l + 1) hi1 ;;
          coo_qsort fuel' s lo l
    end.

(** at_insert_sort_coo.cpp:131-140  merge loop; the state is (arrays, k) *)
Definition coo_merge (s : arr3) (nnz : nat) : res (arr3 * nat) :=
  for_ 1 nnz (fun i st =>
    let '((ri, ci, v), k) := st in
    rk <- rd ri k ;; r <- rd ri i ;;
    differ <- (if negb (rk =? r) then Ok true
               else ck <- rd ci k ;; c <- rd ci i ;; Ok (negb (ck =? c))) ;;
    '(ri, ci, k) <- (if (differ : bool) then
                       c <- rd ci i ;;
                       ri <- wr ri (k + 1) r ;; ci <- wr ci (k + 1) c ;;
                       Ok (ri, ci, k + 1)
                     else Ok (ri, ci, k)) ;;
    x <- rd v i ;; v <- wr v k x ;;
    Ok ((ri, ci, v), k)) (s, 0).

(** at_insert_sort_coo.cpp:119-144  sort(merge) *)
Definition coo_sort (c : coo F) (merge : bool) : res (coo F) :=
  '(ri, ci, v) <- coo_qsort (c_nnz c) (c_ri c, c_ci c, c_val c) 0 (c_nnz c) ;;
  if merge then
    '((ri, ci, v), k) <- coo_merge (ri, ci, v) (c_nnz c) ;;
    Ok (mkCoo (c_row c) (c_col c) ri ci v (k + 1) (c_alloc c) (c_own c))
  else Ok (mkCoo (c_row c) (c_col c) ri ci v (c_nnz c) (c_alloc c) (c_own c)).

(** ** transpose *)

(** src/utils/transpose/transpose_coo.cpp:9-17 *)
Definition coo_transpose (c : coo F) : coo F :=
  mkCoo (c_col c) (c_row c) (c_ci c) (c_ri c) (c_val c) (c_nnz c) (c_alloc c) (c_own c).

(** monolish_coo.hpp:662-668  get_val_ptr(): copy of the first val_nnz values *)
Definition coo_val_ptr (c : coo F) : res (list F) :=
  for_ 0 (c_nnz c) (fun i t => x <- rd (c_val c) i ;; wr t i x) (repeat f0 (c_nnz c)).

(** transpose_coo.cpp:21-42  this.transpose(B), this and B distinct objects *)
Definition coo_transpose_from (c B : coo F) : res (coo F) :=
  val <- coo_val_ptr B ;;
  let c1 := mkCoo (c_col B) (c_row B) (c_ci B) (c_ri B) (c_val c) (c_nnz c) (c_alloc c) true in
  c2 <- coo_resize c1 (length val) f0 ;;
  v <- for_ 0 (length val) (fun i t => x <- rd val i ;; wr t i x) (c_val c2) ;;
  Ok (mkCoo (c_row c2) (c_col c2) (c_ri c2) (c_ci c2) v (c_nnz c2) (c_alloc c2) true).

(** transpose_coo.cpp:21-42 with [this] and [B] the SAME object (A.transpose(A)):
    every read of B sees the fields already overwritten. *)
Definition coo_transpose_self (c : coo F) : res (coo F) :=
  let r1 := c_col c in              (* set_row(B.get_col()) *)
  let c1 := r1 in                   (* set_col(B.get_row()), row already overwritten *)
  let ri1 := c_ci c in              (* row_index = B.get_col_ind() *)
  let ci1 := ri1 in                 (* col_index = B.get_row_ptr(), already overwritten *)
  let s := mkCoo r1 c1 ri1 ci1 (c_val c) (c_nnz c) (c_alloc c) (c_own c) in
  coo_transpose_from s (mkCoo c1 r1 ci1 ri1 (c_val c) (c_nnz c) (c_alloc c) true).

(** ** getvec: the output vector is given by its length and old contents [vec] *)

(** src/utils/getvec/coo_getvec.cpp:8-26 diag *)
Definition coo_diag (c : coo F) (vec : list F) : res (list F) :=
  let s := if c_col c <? c_row c then c_col c else c_row c in
  assert_ (s =? length vec) ;;;
  vec <- for_ 0 (length vec) (fun i w => wr w i f0) vec ;;
  for_ 0 (c_nnz c) (fun i w =>
    r <- rd (c_ri c) i ;; q <- rd (c_ci c) i ;;
    if r =? q then x <- rd (c_val c) i ;; wr w r x else Ok w) vec.

(** coo_getvec.cpp:104-120 row *)
Definition coo_getrow (c : coo F) (r0 : nat) (vec : list F) : res (list F) :=
  assert_ (c_col c =? length vec) ;;;
  vec <- for_ 0 (length vec) (fun i w => wr w i f0) vec ;;
  for_ 0 (c_nnz c) (fun i w =>
    r <- rd (c_ri c) i ;;
    if r =? r0 then q <- rd (c_ci c) i ;; x <- rd (c_val c) i ;; wr w q x else Ok w) vec.

(** coo_getvec.cpp:199-215 col *)
Definition coo_getcol (c : coo F) (c0 : nat) (vec : list F) : res (list F) :=
  assert_ (c_row c =? length vec) ;;;
  vec <- for_ 0 (length vec) (fun i w => wr w i f0) vec ;;
  for_ 0 (c_nnz c) (fun i w =>
    q <- rd (c_ci c) i ;;
    if q =? c0 then r <- rd (c_ri c) i ;; x <- rd (c_val c) i ;; wr w r x else Ok w) vec.

(** ** compare *)

(** src/utils/compare/compare_coo.cpp:10-65 equal; operator== is lines 71-79,
    operator!= (83-91) its negation.  Each vequal reads get_nnz() of THIS elements
    of both arrays. *)
Definition coo_equal (a b : coo F) : res bool :=
  if negb (c_row a =? c_row b) then Ok false
  else if negb (c_col a =? c_col b) then Ok false
  else
    e1 <- vequalF (c_nnz a) (c_val a) (c_val b) ;;
    if negb e1 then Ok false else
    e2 <- vequalI (c_nnz a) (c_ci a) (c_ci b) ;;
    if negb e2 then Ok false else
    e3 <- vequalI (c_nnz a) (c_ri a) (c_ri b) ;;
    if negb e3 then Ok false else Ok true.

(** compare_coo.cpp:102-126 util::is_same_structure *)
Definition coo_same_structure (a b : coo F) : res bool :=
  let ans := (c_row a =? c_row b) && (c_col a =? c_col b) in
  e2 <- vequalI (c_nnz a) (c_ci a) (c_ci b) ;;
  if negb e2 then Ok false else
  e3 <- vequalI (c_nnz a) (c_ri a) (c_ri b) ;;
  if negb e3 then Ok false else Ok ans.

(** ** conversion from/to Dense *)

(** src/utils/convert/convert_coo.cpp:34-59  COO::convert(Dense), [this] = c.
    State: (row_index, col_index, data, nz); push_back = append. *)
Definition coo_convert_dense (c : coo F) (d : dense F) : res (coo F) :=
  let c1 := mkCoo (d_row d) (d_col d) (c_ri c) (c_ci c) (c_val c) (c_nnz c) (c_alloc c) true in
  c2 <- coo_resize c1 (d_row d * d_col d) f0 ;;
  '(ri, ci, v, nz) <-
    for_ 0 (d_row d) (fun i st =>
      for_ 0 (d_col d) (fun j st =>
        let '(ri, ci, v, nz) := st in
        x <- dense_at d i j ;;
        if negb (feqb x f0) then
          y <- dense_at d i j ;;
          v <- wr v nz y ;;
          Ok (ri ++ [i], ci ++ [j], v, nz + 1)
        else Ok (ri, ci, v, nz)) st) ([], [], c_val c2, 0) ;;
  coo_resize (mkCoo (c_row c2) (c_col c2) ri ci v (c_nnz c2) (c_alloc c2) true) nz f0.

(** src/utils/convert/convert_dense.cpp:9-27  Dense::convert(COO), [this] = d *)
Definition dense_convert_coo (d : dense F) (c : coo F) : res (dense F) :=
  let d1 := d_set_own (d_set_rc d (c_row c) (c_col c)) in
  d2 <- dense_resize d1 (c_row c * c_col c) f0 ;;
  v <- for_ 0 (d_nnz d2) (fun i v => wr v i f0) (d_val d2) ;;
  for_ 0 (c_nnz c) (fun k d =>
    r <- rd (c_ri c) k ;; q <- rd (c_ci c) k ;; x <- rd (c_val c) k ;;
    dense_insert d r q x) (d_set_val d2 v).

End CooModel.
