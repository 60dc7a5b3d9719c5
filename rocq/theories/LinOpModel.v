(** * LinOpModel: matrix::LinearOperator.

    A LinearOperator holds std::function objects. Those built by the library are lambdas that capture
    their operands BY REFERENCE ([&]); so an operator is a small program over other objects of the
    program, and the meaning of a call depends on those objects at the time of the call. The model is
    therefore a [world] of numbered objects (alive or already destroyed), and a stored function is either
    a function supplied by the user or one of the library's lambdas with the numbers it captured.

    Simplifications: CPU only (gpu_status is false everywhere, so its equality asserts always hold);
    user functions are pure (their result depends on the argument only); vectors are lists (C39/C40/C43
    treat buffers and threads); blas::sum is the left fold (C14 treats the other schedules); a call
    nested deeper than the machine stack is [NoFuel]. *)
From Verif Require Import Base Scalar DenseModel CooModel CrsModel SolverModel.
Set Implicit Arguments.

Section LinOpModel.
Context {F : Type} {SF : Scalar F} {SC : Schedule}.
Local Open Scope F_scope.

(** the stored std::function<vector(const vector&)>; [t] = true: the lambda works with rmatvec *)
Inductive clo :=
| KUser (f : list F -> res (list F))
| KCoo (m : nat)                                  (* convert_linearoperator.cpp:27-32 *)
| KCrs (this m : nat)                             (* convert_linearoperator.cpp:59-66, captures [this] for gpu_status *)
| KDense (this m : nat)                           (* convert_linearoperator.cpp:95-102 *)
| KAxpy (t : bool) (s : F) (a b : nat)            (* linearoperator_mataddsub.hpp:24-35, 39-50, 72-83, 87-98 *)
| KProd (t : bool) (a b : nat)                    (* linearoperator-linearoperator_matmul.hpp:23-34, 37-48 *)
| KShift (t : bool) (op : F -> F -> F) (a alpha : nat)   (* double_scalar_linearoperator.cpp:21-32, 35-46, 61-72, 75-86 *)
| KScale (t : bool) (g : F -> F) (a alpha : nat). (* double_scalar_linearoperator.cpp:101-112, 115-126, 144-155, 158-169 *)

(** the stored std::function<Dense(const Dense&)> *)
Inductive mclo :=
| MUser (f : dense F -> res (dense F))
| MCoo (m : nat) | MCrs (this m : nat) | MDense (this m : nat).

(** include/monolish/common/monolish_linearoperator.hpp:35-72; [None] is an empty std::function *)
Record linop := mkOp {
  l_row : nat; l_col : nat;
  l_mv : option clo; l_rmv : option clo;
  l_mm : option mclo; l_rmm : option mclo }.

(** the objects of the program; [None]: no (longer an) object there *)
Record world := mkW {
  w_op : nat -> option linop; w_crs : nat -> option (crs F); w_coo : nat -> option (coo F);
  w_dense : nat -> option (dense F); w_sc : nat -> option F }.

(** use of an object through a reference; undefined if it is not alive *)
Definition get {A} (f : nat -> option A) (i : nat) : res A := match f i with Some a => Ok a | None => UB end.
Definition put {A} (f : nat -> option A) (i : nat) (v : option A) : nat -> option A :=
  fun j => if j =? i then v else f j.
Definition set_op (w : world) (i : nat) (o : option linop) : world :=
  mkW (put (w_op w) i o) (w_crs w) (w_coo w) (w_dense w) (w_sc w).
Definition set_crs (w : world) (i : nat) (o : option (crs F)) : world :=
  mkW (w_op w) (put (w_crs w) i o) (w_coo w) (w_dense w) (w_sc w).
Definition set_coo (w : world) (i : nat) (o : option (coo F)) : world :=
  mkW (w_op w) (w_crs w) (put (w_coo w) i o) (w_dense w) (w_sc w).
Definition set_dense (w : world) (i : nat) (o : option (dense F)) : world :=
  mkW (w_op w) (w_crs w) (w_coo w) (put (w_dense w) i o) (w_sc w).
Definition set_sc (w : world) (i : nat) (o : option F) : world :=
  mkW (w_op w) (w_crs w) (w_coo w) (w_dense w) (put (w_sc w) i o).

(** matvec or rmatvec of an operator, and the length of its argument and of its result *)
Definition l_fun (t : bool) (A : linop) : option clo := if t then l_rmv A else l_mv A.
Definition l_in (t : bool) (A : linop) : nat := if t then l_row A else l_col A.
Definition l_out (t : bool) (A : linop) : nat := if t then l_col A else l_row A.

(** src/blas/matrix/matvec/linearoperator_matvec.hpp:7-34 (t = false: matvec_core), 36-63 (t = true:
    rmatvec_core). [callk] calls a stored function. y_tmp has y's size; its operator= asserts that the
    returned vector has the same size. *)
Definition opvec (callk : clo -> list F -> res (list F)) (w : world) (t : bool) (a : nat) (x y : list F)
  : res (list F) :=
  A <- get (w_op w) a ;;
  assert_ (l_out t A =? length y) ;;; assert_ (l_in t A =? length x) ;;;
  match l_fun t A with
  | Some k => r <- callk k x ;; assert_ (length y =? length r) ;;; Ok r
  | None => Throw
  end.

(** blas::sum(x): src/blas/vector/sum.hpp (one thread) *)
Definition l_sum (x : list F) : F := fold_left fadd x 0.

(** calling a stored function; [n] bounds the depth of nested calls *)
Fixpoint call (n : nat) (w : world) (k : clo) (x : list F) : res (list F) :=
  match n with
  | O => NoFuel
  | S n' =>
    match k with
    | KUser f => f x
    | KCoo m =>
        c <- get (w_coo w) m ;; a <- crs_convert_coo crs_empty c ;;
        crs_matvec a x (repeat 0 (m_row a))
    | KCrs this m =>
        a <- get (w_crs w) m ;; get (w_op w) this ;;; crs_matvec a x (repeat 0 (m_row a))
    | KDense this m =>
        d <- get (w_dense w) m ;; get (w_op w) this ;;; dense_matvec d x (repeat 0 (d_row d))
    | KAxpy t s a b =>
        A <- get (w_op w) a ;;
        vec <- opvec (call n' w) w t a x (repeat 0 (l_out t A)) ;;
        tmp <- opvec (call n' w) w t b x (repeat 0 (l_out t A)) ;;
        v_axpy s tmp vec
    | KProd false a b =>
        A <- get (w_op w) a ;; B <- get (w_op w) b ;;
        tmp <- opvec (call n' w) w false b x (repeat 0 (l_row B)) ;;
        opvec (call n' w) w false a tmp (repeat 0 (l_row A))
    | KProd true a b =>
        B <- get (w_op w) b ;; A <- get (w_op w) a ;;
        tmp <- opvec (call n' w) w true a x (repeat 0 (l_col A)) ;;
        opvec (call n' w) w true b tmp (repeat 0 (l_col B))
    | KShift t op a al =>
        A <- get (w_op w) a ;;
        tmp <- opvec (call n' w) w t a x (repeat 0 (l_out t A)) ;;
        alpha <- get (w_sc w) al ;;
        Ok (map (fun v => op v (alpha * l_sum x)) tmp)
    | KScale t g a al =>
        A <- get (w_op w) a ;;
        tmp <- opvec (call n' w) w t a x (repeat 0 (l_out t A)) ;;
        alpha <- get (w_sc w) al ;;
        Ok (map (fun v => v * g alpha) tmp)
    end
  end.

(** blas::matvec(A, x, y) and blas::rmatvec(A, x, y): matvec_blas.cpp *)
Definition op_matvec (n : nat) (w : world) (a : nat) (x y : list F) := opvec (call n w) w false a x y.
Definition op_rmatvec (n : nat) (w : world) (a : nat) (x y : list F) := opvec (call n w) w true a x y.

(** ** constructors and setters *)

(** linearoperator_constructor.cpp:16-26, 28-40, 50-64, 74-86, 94-108 *)
Definition op_new (M N : nat) (mv rmv : option clo) (mm rmm : option mclo) : linop := mkOp M N mv rmv mm rmm.
(** linearoperator_constructor.cpp:136-153: set_matvec / set_rmatvec *)
Definition set_fun (t : bool) (A : linop) (k : clo) : linop :=
  if t then mkOp (l_row A) (l_col A) (l_mv A) (Some k) (l_mm A) (l_rmm A)
  else mkOp (l_row A) (l_col A) (Some k) (l_rmv A) (l_mm A) (l_rmm A).
(** the pattern [if (A.get_matvec_init_flag()) C.set_matvec(...)] *)
Definition set_if (b : bool) (t : bool) (A : linop) (k : clo) : linop := if b then set_fun t A k else A.
Definition has {A} (o : option A) : bool := match o with Some _ => true | None => false end.

(** linearoperator_constructor.cpp:116-129: copy constructor: matmul_dense and rmatmul_dense are not copied *)
Definition op_copy_ctor (A : linop) : linop := mkOp (l_row A) (l_col A) (l_mv A) (l_rmv A) None None.

(** the functions copied by operator= and blas::copy: only those that are set in the source *)
Definition copy_funs (A C : linop) : linop :=
  let C := match l_mv A with Some k => set_fun false C k | None => C end in
  match l_rmv A with Some k => set_fun true C k | None => C end.
(** copy_linearoperator.cpp:9-25: operator= *)
Definition op_assign (A C : linop) : linop :=
  copy_funs A (mkOp (l_row A) (l_col A) (l_mv C) (l_rmv C) (l_mm C) (l_rmm C)).

(** compare_linearoperator.cpp:32-46: is_same_size with two arguments ([&&] where [||] is meant) *)
Definition op_same_size (A B : linop) : bool :=
  negb (negb (l_row A =? l_row B) && negb (l_col A =? l_col B)).

(** linearOperator_copy.hpp:8-26: blas::copy(A, C) *)
Definition op_blas_copy (A C : linop) : res linop := assert_ (op_same_size A C) ;;; Ok (copy_funs A C).

(** ** convert *)

(** convert_linearoperator.cpp:16-44 *)
Definition op_convert_coo (w : world) (this m : nat) : res world :=
  c <- get (w_coo w) m ;; get (w_op w) this ;;;
  Ok (set_op w this (Some (mkOp (c_row c) (c_col c) (Some (KCoo m)) None (Some (MCoo m)) None))).
(** convert_linearoperator.cpp:49-78 *)
Definition op_convert_crs (w : world) (this m : nat) : res world :=
  a <- get (w_crs w) m ;; get (w_op w) this ;;;
  Ok (set_op w this (Some (mkOp (m_row a) (m_col a) (Some (KCrs this m)) None (Some (MCrs this m)) None))).
(** convert_linearoperator.cpp:83-114 *)
Definition op_convert_dense (w : world) (this m : nat) : res world :=
  d <- get (w_dense w) m ;; get (w_op w) this ;;;
  Ok (set_op w this (Some (mkOp (d_row d) (d_col d) (Some (KDense this m)) None (Some (MDense this m)) None))).

(** copy_dense.cpp:10-22: Dense::operator= *)
Definition dense_assign (d m : dense F) : res (dense F) :=
  assert_ ((d_row d =? d_row m) && (d_col d =? d_col m)) ;;;
  v <- for_ 0 (d_nnz d) (fun i v => e <- rd (d_val m) (d_first m + i) ;; wr v (d_first d + i) e) (d_val d) ;;
  Ok (d_set_own (d_set_val d v)).

(** calling the member [matvec] directly: an empty std::function throws std::bad_function_call *)
Definition call_mv (n : nat) (w : world) (A : linop) (x : list F) : res (list F) :=
  match l_mv A with Some k => call n w k x | None => Throw end.

(** convert_linearoperator.cpp:119-147: convert_to_Dense(dense) *)
Definition op_to_dense (n : nat) (w : world) (A : linop) (d : dense F) : res (dense F) :=
  if has (l_mv A) then
    vals <- for_ 0 (l_col A) (fun i vals =>
      vec <- wr (repeat 0 (l_col A)) i 1 ;;
      r <- call_mv n w A vec ;;
      assert_ (l_row A =? length r) ;;;
      for_ 0 (l_row A) (fun j vals => e <- rd r j ;; wr vals (j * l_col A + i) e) vals)
      (repeat 0 (l_row A * l_col A)) ;;
    D <- dense_of_stdvector (l_row A) (l_col A) vals ;;
    dense_assign d D
  else
    D <- dense_new (l_row A) (l_col A) ;; dense_assign d D.

(** convert_coo.cpp:63-73: COO::convert(LinearOperator) *)
Definition coo_convert_op (n : nat) (w : world) (c : coo F) (A : linop) : res (coo F) :=
  d <- dense_new (l_row A) (l_col A) ;; d <- op_to_dense n w A d ;; coo_convert_dense c d.

(** linearoperator_getvec.cpp:8-54: diag(vector). Every thread has its own vec_tmp (all zero) and does
    its share of the iterations, each one setting and clearing an element of it. An exception inside the
    parallel region (empty matvec) terminates the program. *)
Definition op_diag (n : nat) (w : world) (A : linop) (v : list F) : res (list F) :=
  let len := Nat.min (l_row A) (l_col A) in
  assert_ (len =? length v) ;;;
  fold_left (fun acc its =>
    v <- acc ;;
    '(v, _) <- fold_left (fun acc i =>
        '(v, tmp) <- acc ;;
        tmp <- wr tmp i 1 ;;
        r <- match call_mv n w A tmp with Throw => Abort | r => r end ;;
        e <- rd r i ;;
        v <- wr v i e ;;
        tmp <- wr tmp i 0 ;;
        Ok (v, tmp)) its (Ok (v, repeat 0 (l_col A))) ;;
    Ok v) (sched len) (Ok v).

(** ** BLAS and VML functions on operators *)

(** linearoperator_mataddsub.hpp:9-55 (s = 1: matadd), 57-103 (s = -1: matsub);
    double_linearoperator_linearoperator.cpp:11-57 (vml::add), 59-100 (vml::sub: [chk] = false, the two
    asserts on the init flags are missing). [same_funs] is the pair of asserts. *)
Definition same_funs (A B : linop) : bool :=
  Bool.eqb (has (l_mv A)) (has (l_mv B)) && Bool.eqb (has (l_rmv A)) (has (l_rmv B)).
Definition op_axpy (chk : bool) (s : F) (w : world) (a b c : nat) : res world :=
  A <- get (w_op w) a ;; B <- get (w_op w) b ;; C <- get (w_op w) c ;;
  assert_ (op_same_size A B && op_same_size A C) ;;;
  assert_ (negb chk || same_funs A B) ;;;
  let C := set_if (has (l_mv A)) false C (KAxpy false s a b) in
  w <- Ok (set_op w c (Some C)) ;;
  A <- get (w_op w) a ;;
  let C := set_if (has (l_rmv A)) true C (KAxpy true s a b) in
  Ok (set_op w c (Some C)).
Definition op_matadd := op_axpy true 1.
Definition op_matsub := op_axpy true (- (1)).
Definition op_vadd := op_axpy true 1.
Definition op_vsub := op_axpy false (- (1)).

(** linearoperator-linearoperator_matmul.hpp:7-52 (double) = 55-100 (float) *)
Definition op_matmul (w : world) (a b c : nat) : res world :=
  A <- get (w_op w) a ;; B <- get (w_op w) b ;; C <- get (w_op w) c ;;
  assert_ (l_col A =? l_row B) ;;; assert_ (l_row A =? l_row C) ;;; assert_ (l_col B =? l_col C) ;;;
  assert_ (same_funs A B) ;;;
  let C := set_if (has (l_mv A)) false C (KProd false a b) in
  w <- Ok (set_op w c (Some C)) ;;
  A <- get (w_op w) a ;;
  let C := set_if (has (l_rmv A)) true C (KProd true a b) in
  Ok (set_op w c (Some C)).

(** double_scalar_linearoperator.cpp: the scalar [al] is captured by reference too *)
Definition op_scalar (k : bool -> clo) (w : world) (a c : nat) : res world :=
  A <- get (w_op w) a ;; C <- get (w_op w) c ;;
  assert_ (op_same_size A C) ;;;
  let C := set_if (has (l_mv A)) false C (k false) in
  w <- Ok (set_op w c (Some C)) ;;
  A <- get (w_op w) a ;;
  let C := set_if (has (l_rmv A)) true C (k true) in
  Ok (set_op w c (Some C)).
(** 11-50, 52-90, 92-130, 132-173 *)
Definition op_adds (w : world) (a al c : nat) := op_scalar (fun t => KShift t fadd a al) w a c.
Definition op_subs (w : world) (a al c : nat) := op_scalar (fun t => KShift t fsub a al) w a c.
Definition op_muls (w : world) (a al c : nat) := op_scalar (fun t => KScale t (fun v => v) a al) w a c.
Definition op_divs (w : world) (a al c : nat) := op_scalar (fun t => KScale t (fun v => 1 / v) a al) w a c.

(** ** operator times Dense *)

(** blas::matmul(Dense, Dense, Dense): dense-dense_matmul.hpp with cblas_?gemm(1, A, B, 0, C) by its
    specification (see DenseBlasModel.k_matmul) *)
Definition dense_matmul (A B C : dense F) : res (dense F) :=
  assert_ (d_col A =? d_row B) ;;; assert_ (d_row A =? d_row C) ;;; assert_ (d_col B =? d_col C) ;;;
  v <- for_ 0 (d_row A) (fun i v => for_ 0 (d_col B) (fun j v =>
    s <- for_ 0 (d_col A) (fun k s =>
      p <- rd (d_val A) (d_first A + (i * d_col A + k)) ;;
      q <- rd (d_val B) (d_first B + (k * d_col B + j)) ;; Ok (s + p * q)) 0 ;;
    wr v (d_first C + (i * d_col C + j)) (1 * s)) v) (d_val C) ;;
  Ok (d_set_val C v).

(** calling a stored matmul: convert_linearoperator.cpp:34-39, 68-75, 104-111 *)
Definition mcall (w : world) (k : mclo) (B : dense F) : res (dense F) :=
  match k with
  | MUser f => f B
  | MCoo m =>
      c <- get (w_coo w) m ;; a <- crs_convert_coo crs_empty c ;;
      mat <- dense_new (m_row a) (d_col B) ;; crs_dense_matmul_scalar 1 a B 0 mat
  | MCrs this m =>
      a <- get (w_crs w) m ;; mat <- dense_new (m_row a) (d_col B) ;; get (w_op w) this ;;;
      crs_dense_matmul_scalar 1 a B 0 mat
  | MDense this m =>
      d <- get (w_dense w) m ;; mat <- dense_new (d_row d) (d_col B) ;; get (w_op w) this ;;;
      dense_matmul d B mat
  end.

(** linearoperator-dense_matmul.hpp:7-26 (t = false: matmul), 51-70 (t = true: rmatmul) *)
Definition op_dense_matmul (t : bool) (w : world) (a : nat) (B C : dense F) : res (dense F) :=
  A <- get (w_op w) a ;;
  assert_ (l_in t A =? d_row B) ;;; assert_ (l_out t A =? d_row C) ;;; assert_ (d_col B =? d_col C) ;;;
  match (if t then l_rmm A else l_mm A) with
  | Some k => R <- mcall w k B ;; dense_assign C R
  | None => Throw
  end.

End LinOpModel.
Arguments clo F : clear implicits.
Arguments mclo F : clear implicits.
Arguments linop F : clear implicits.
Arguments world F : clear implicits.
