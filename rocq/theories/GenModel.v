(** * GenModel: the matrix generators of namespace util (model only, no proofs).

    Sizes M, N (C++ int) are natural numbers: negative sizes are outside the model.  The other int
    parameters and every intermediate int are integers, and an int expression that may leave the int
    range is guarded by [int_] (overflow of a signed int = undefined behaviour).  The generators
    return a matrix by value; the logger calls are modelled in LogModel. *)
From Coq Require Import ZArith.
From Verif Require Import Base Scalar DenseModel CooModel TensorModel.
Set Implicit Arguments.

(** conversion of an int to Float ([T val = M - std::max(i, j)], the literals 1.0, 2.0, 4.0, -1.0) *)
Class FromInt (F : Type) := { of_int : Z -> F }.
#[export] Instance Z_FromInt : FromInt Z := {| of_int := fun z => z |}.
Definition b64_FromInt : FromInt b64 := {| of_int := b64_of_Z |}.

(** the range of C++ int (32 bits) *)
Definition int_ok (z : Z) : bool := ((- 2147483648 <=? z) && (z <=? 2147483647))%Z.
(** an int computation with result z *)
Definition int_ (z : Z) : res Z := if int_ok z then Ok z else UB.

Section GenModel.
Context {F : Type} {SF : Scalar F} {FI : FromInt F}.

(** mat.insert(i, j, v) with int arguments: they are converted to size_t, so a negative index becomes
    a number above every size and fails the first or second assert of insert
    (at_insert_sort_coo.cpp:35-36); the receiver is always freshly constructed (it owns its data). *)
Definition ins (c : coo F) (i j : Z) (v : F) : res (coo F) :=
  assert_ (0 <=? i)%Z ;;; assert_ (0 <=? j)%Z ;;;
  coo_insert c (Z.to_nat i) (Z.to_nat j) v.

(** src/utils/create_matrix/band_matrix.cpp:19-23: start = (i < ww ? 0 : i - ww),
    end = (N <= (i + ww + 1) ? N : i + ww + 1) *)
Definition band_start (i W : Z) : res Z := if (i <? W)%Z then Ok 0%Z else int_ (i - W).
Definition band_end (i N W : Z) : res Z :=
  t <- int_ (i + W) ;; t <- int_ (t + 1) ;; Ok (if (N <=? t)%Z then N else t).

(** band_matrix.cpp:7-34  band_matrix(M, N, W, diag_val, val) *)
Definition band_matrix (M N : nat) (W : Z) (diag_val val : F) : res (coo F) :=
  require_ (negb (Z.of_nat N <=? W)%Z) ;;;
  for_ 0 M (fun i c =>
    start <- band_start (Z.of_nat i) W ;;
    end_ <- band_end (Z.of_nat i) (Z.of_nat N) W ;;
    for_ (Z.to_nat start) (Z.to_nat end_) (fun j c =>
      if (i =? j) && negb (feqb diag_val f0) then coo_insert c i j diag_val
      else if negb (feqb val f0) then coo_insert c i j val
      else Ok c) c) (coo_new M N).

(** band_matrix.cpp:44-76  asym_band_matrix(M, N, W, diag_val, Uval, Lval) *)
Definition asym_band_matrix (M N : nat) (W : Z) (diag_val Uval Lval : F) : res (coo F) :=
  require_ (negb (Z.of_nat N <=? W)%Z) ;;;
  for_ 0 M (fun i c =>
    start <- band_start (Z.of_nat i) W ;;
    end_ <- band_end (Z.of_nat i) (Z.of_nat N) W ;;
    for_ (Z.to_nat start) (Z.to_nat end_) (fun j c =>
      if (i =? j) && negb (feqb diag_val f0) then coo_insert c i j diag_val
      else if (i <? j) && negb (feqb Uval f0) then coo_insert c i j Uval
      else if (j <? i) && negb (feqb Lval f0) then coo_insert c i j Lval
      else Ok c) c) (coo_new M N).

(** src/utils/create_matrix/eye.cpp:6-19  eye(M) *)
Definition eye (M : nat) : res (coo F) :=
  for_ 0 M (fun i c => coo_insert c i i f1) (coo_new M M).

(** src/utils/create_matrix/frank.cpp:6-21  frank_matrix(M) *)
Definition frank_matrix (M : nat) : res (coo F) :=
  for_ 0 M (fun i c =>
    for_ 0 M (fun j c =>
      coo_insert c i j (of_int (Z.of_nat M - Z.of_nat (Nat.max i j)))) c) (coo_new M M).

(** src/utils/create_matrix/tridiagonal_toeplitz.cpp:6-25  tridiagonal_toeplitz_matrix(M, a, b).
    The loop runs over i = 1 .. M-2 (no iteration when M < 3). *)
Definition tridiagonal_toeplitz_matrix (M : nat) (a b : F) : res (coo F) :=
  let m := Z.of_nat M in
  c <- ins (coo_new M M) 0 0 a ;;
  c <- ins c 0 1 b ;;
  c <- for_ 1 (M - 1) (fun i c =>
         let i := Z.of_nat i in
         c <- ins c i (i - 1) b ;; c <- ins c i i a ;; ins c i (i + 1) b) c ;;
  c <- ins c (m - 1) (m - 2) b ;;
  ins c (m - 1) (m - 1) a.

(** src/utils/create_matrix/laplacian.cpp:6-8  laplacian_matrix_1D(M) *)
Definition laplacian_matrix_1D (M : nat) : res (coo F) :=
  tridiagonal_toeplitz_matrix M (of_int 2) (of_int (-1)).

(** src/utils/create_matrix/laplacian_2D5p.cpp:6-53  laplacian_matrix_2D_5p(m, n).  int division
    ii / m truncates toward 0; ii >= 0 and m > 0 inside the loop, so it is [Nat.div].  The counter
    ctr is not used. *)
Definition laplacian_matrix_2D_5p (m n : nat) : res (coo F) :=
  size <- int_ (Z.of_nat m * Z.of_nat n) ;;
  let size := Z.to_nat size in
  for_ 0 size (fun ii c =>
    let zi := Z.of_nat ii in
    let i := Z.of_nat (ii / m) in
    let j := (zi - i * Z.of_nat m)%Z in
    c <- (if (0 <? i)%Z then ins c zi (zi - Z.of_nat m) (of_int (-1)) else Ok c) ;;
    c <- (if (0 <? j)%Z then ins c zi (zi - 1) (of_int (-1)) else Ok c) ;;
    c <- ins c zi zi (of_int 4) ;;
    c <- (if (j <? Z.of_nat m - 1)%Z then ins c zi (zi + 1) (of_int (-1)) else Ok c) ;;
    (if (i <? Z.of_nat n - 1)%Z then ins c zi (zi + Z.of_nat m) (of_int (-1)) else Ok c))
    (coo_new size size).

(** src/utils/create_matrix/toeplitz_plus_hankel.cpp:6-38
    toeplitz_plus_hankel_matrix(M, a0, a1, a2).  The loop runs over i = 2 .. M-3. *)
Definition toeplitz_plus_hankel_matrix (M : nat) (a0 a1 a2 : F) : res (coo F) :=
  let m := Z.of_nat M in
  c <- ins (coo_new M M) 0 0 (fsub a0 a2) ;;
  c <- ins c 0 1 a1 ;;
  c <- ins c 0 2 a2 ;;
  c <- ins c 1 0 a1 ;;
  c <- ins c 1 1 a0 ;;
  c <- ins c 1 2 a1 ;;
  c <- ins c 1 3 a2 ;;
  c <- for_ 2 (M - 2) (fun i c =>
         let i := Z.of_nat i in
         c <- ins c i (i - 2) a2 ;; c <- ins c i (i - 1) a1 ;; c <- ins c i i a0 ;;
         c <- ins c i (i + 1) a1 ;; ins c i (i + 2) a2) c ;;
  c <- ins c (m - 2) (m - 4) a2 ;;
  c <- ins c (m - 2) (m - 3) a1 ;;
  c <- ins c (m - 2) (m - 2) a0 ;;
  c <- ins c (m - 2) (m - 1) a1 ;;
  c <- ins c (m - 1) (m - 3) a2 ;;
  c <- ins c (m - 1) (m - 2) a1 ;;
  ins c (m - 1) (m - 1) (fsub a0 a2).

(** ** Random structure.

    The random engine is an oracle: [draw k] is the value of the k-th call dist_pos(rng) of the run
    (std::uniform_int_distribution<>(0, N-1) only returns values in 0 .. N-1; theorems assume that
    and nothing else about the sequence).  The state carries the number of draws made so far. *)

(** src/utils/create_matrix/random_structure.cpp:25-30 (and src/utils/create_tensor/random_tensor.cpp:25-30,
    65-70, 108-113): the innermost loop, over one row of the matrix (one fibre of the tensor).  [left] is
    nnzrow - j.  When at(..., c) != 0 the C++ does j-- before inserting, so the j++ of the loop leaves j
    unchanged (for the tensors j is a size_t: j-- may wrap around, the following j++ undoes it).  [fuel] bounds
    the number of draws in the row: the C++ loop has no bound. *)
Fixpoint random_fibre {St K} (at_ : St -> K -> res F) (insert_ : St -> K -> F -> res St) (key : nat -> K)
    (fuel : nat) (draw : nat -> nat) (left : nat) (val : F) (st : St * nat) : res (St * nat) :=
  match left with
  | O => Ok st
  | S left' =>
      match fuel with
      | O => NoFuel
      | S fuel' =>
          let '(s, k) := st in
          let c := draw k in
          x <- at_ s (key c) ;;
          s <- insert_ s (key c) val ;;
          random_fibre at_ insert_ key fuel' draw (if negb (feqb x f0) then left else left') val (s, S k)
      end
  end.

Definition random_row (i fuel : nat) draw nnzrow val (st : coo F * nat) :=
  random_fibre (fun c p => coo_at c (fst p) (snd p)) (fun c p v => coo_insert c (fst p) (snd p) v)
    (fun c => (i, c)) fuel draw nnzrow val st.
Definition random_trow (pre : list nat) (fuel : nat) draw nnzrow val (st : tcoo F * nat) :=
  random_fibre (@tc_at F SF) (@tc_insert F SF) (fun c => pre ++ [c]) fuel draw nnzrow val st.

(** random_structure.cpp:7-37  random_structure_matrix(M, N, nnzrow, val), nnzrow >= 0 *)
Definition random_structure_matrix (fuel : nat) (draw : nat -> nat) (M N nnzrow : nat) (val : F)
  : res (coo F) :=
  require_ (negb (N <=? nnzrow)) ;;;
  '(c, _) <- for_ 0 M (fun i st => random_row i fuel draw nnzrow val st) (coo_new M N, 0) ;;
  coo_sort c true.

(** random_tensor.cpp:7-38  random_structure_tensor(M, N, nnzrow, val) *)
Definition random_structure_tensor2 (fuel : nat) (draw : nat -> nat) (M N nnzrow : nat) (val : F) : res (tcoo F) :=
  require_ (negb (N <=? nnzrow)) ;;;
  '(q, _) <- for_ 0 M (fun i st => random_trow [i] fuel draw nnzrow val st) (tc_new [M; N], 0) ;;
  tc_sort q true.
(** random_tensor.cpp:46-79  random_structure_tensor(M, N, L, nnzrow, val) *)
Definition random_structure_tensor3 (fuel : nat) (draw : nat -> nat) (M N L nnzrow : nat) (val : F) : res (tcoo F) :=
  require_ (negb (L <=? nnzrow)) ;;;
  '(q, _) <- for_ 0 M (fun i st => for_ 0 N (fun j st => random_trow [i; j] fuel draw nnzrow val st) st)
      (tc_new [M; N; L], 0) ;;
  tc_sort q true.
(** random_tensor.cpp:87-123  random_structure_tensor(K, M, N, L, nnzrow, val) *)
Definition random_structure_tensor4 (fuel : nat) (draw : nat -> nat) (K M N L nnzrow : nat) (val : F)
  : res (tcoo F) :=
  require_ (negb (L <=? nnzrow)) ;;;
  '(q, _) <- for_ 0 K (fun t st => for_ 0 M (fun i st => for_ 0 N (fun j st =>
      random_trow [t; i; j] fuel draw nnzrow val st) st) st) (tc_new [K; M; N; L], 0) ;;
  tc_sort q true.

End GenModel.
