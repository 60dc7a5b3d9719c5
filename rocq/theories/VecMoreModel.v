(** * VecMoreModel: the remaining constructors, assignment from std::vector, unary minus and the named element-wise functions of
    monolish::vector (model only).  Host memory; logger omitted. *)
From Coq Require Import ZArith Floats.SpecFloat.
From Verif Require Import Base Scalar Mem VecModel VmlModel.
Set Implicit Arguments.

Section VecMoreModel.
Context {F : Type} {SF : Scalar F}.
Notation mem := (Mem.mem F).
Notation kernel := (@kernel F).

(** src/utils/vector_constructor.cpp:18-30  vector(N, value): resize(N), then data()[i] = value in an OpenMP loop *)
Definition k_vec_init (v : vec) (N : nat) (value : F) : kernel := mkKernel true N (map0 value (v_data v)).
(** vector_constructor.cpp:121-129  vector(start, end): std::copy; [n] is end - start *)
Definition vec_of_ptr (m : mem) (start : ptr) (n : nat) : res (mem * vec) :=
  '(m1, v) <- vec_new m n ;;
  m2 <- seq_for n (map1 (fun a => a) start (v_data v)) m1 ;;
  Ok (m2, v).

(** vector_constructor.cpp:55-71, 98-114  vector(N, min, max[, seed]).  [G] is the state of the generator together with the
    distribution, [draw] one call rand(mt) converted to Float. *)
Definition vec_random {G : Type} (draw : G -> F * G) (m : mem) (N : nat) (g : G) : res (mem * vec) :=
  '(m1, v) <- vec_new m N ;;
  '(m2, _) <- for_ 0 N (fun i '(m, g) => let '(x, g') := draw g in m' <- st m (padd (v_data v) i) x ;; Ok (m', g')) (m1, g) ;;
  Ok (m2, v).
(** vector_constructor.cpp:35-48, 78-91  util::random_vector(vec, min, max[, seed]): vec[i] = rand(mt) *)
Definition random_vector {G : Type} (draw : G -> F * G) (m : mem) (v : vec) (g : G) : res mem :=
  '(m2, _) <- for_ 0 (v_nnz v) (fun i '(m, g) => let '(x, g') := draw g in m' <- vec_set m v i x ;; Ok (m', g')) (m, g) ;;
  Ok m2.

(** src/utils/copy/copy_vector.cpp:10-19  operator=(std::vector): val_create_flag = true, resize(vec.size())
    (monolish_vector.hpp:446-465), copy to begin().  A buffer the vector does not own (it came from move()) stays alive. *)
Definition vec_assign_list (m : mem) (v : vec) (l : list F) : res (mem * vec) :=
  let N := length l in
  let copy_size := Nat.min (v_nnz v) N in
  tmp <- for_ 0 copy_size (fun i t => x <- ld m (padd (v_data v) i) ;; wr t i x) (repeat f0 N) ;;
  tmp <- for_ copy_size N (fun i t => wr t i f0) tmp ;;
  let '(m1, b) := malloc (if v_own v then mfree m (v_buf v) else m) tmp in
  let v1 := mkVec b (v_first v) N N true in
  m2 <- for_ 0 N (fun i m => x <- rd l i ;; st m (padd (v_begin v1) i) x) m1 ;;
  Ok (m2, v1).

(** src/utils/minus/vector_minus.cpp:8-21  operator-(): ans(size()), then internal::vmul(size(), begin(), -1, ans.begin())
    (src/internal/arithmetic/double_arithmetic.cpp:59-81) *)
Definition k_vec_minus (v ans : vec) : kernel :=
  mkKernel true (v_nnz v) (map1 (fun x => fmul x (fopp f1)) (v_begin v) (v_begin ans)).

(** src/vml/vector/math_2op/vec{sin,sinh,asin,asinh,tan,tanh,atan,atanh,ceil,floor,exp}.hpp:5-16;
    src/internal/math/double_math.cpp:99-371, 402-427 *)
Definition k_vml_sin (L : libm F) := k_v (l_sin L).
Definition k_vml_sinh (L : libm F) := k_v (l_sinh L).
Definition k_vml_asin (L : libm F) := k_v (l_asin L).
Definition k_vml_asinh (L : libm F) := k_v (l_asinh L).
Definition k_vml_tan (L : libm F) := k_v (l_tan L).
Definition k_vml_tanh (L : libm F) := k_v (l_tanh L).
Definition k_vml_atan (L : libm F) := k_v (l_atan L).
Definition k_vml_atanh (L : libm F) := k_v (l_atanh L).
Definition k_vml_ceil (L : libm F) := k_v (l_ceil L).
Definition k_vml_floor (L : libm F) := k_v (l_floor L).
Definition k_vml_exp (L : libm F) := k_v (l_exp L).
(** src/vml/vector/math_1_3op/vecpow.hpp:5-18, 20-33; double_math.cpp:40-66, 68-94 *)
Definition k_vml_pow (L : libm F) := k_vv (l_pow L).
Definition k_vml_pows (L : libm F) (alpha : F) := k_v (fun x => l_pow L x alpha).
End VecMoreModel.

(** the conversion of the distribution's double to float when Float is float (vector_constructor.cpp:66): round to nearest even *)
Definition d2f (x : spec_float) : spec_float :=
  match x with
  | S754_finite s m e => binary_normalize 24 128 (if s then Z.neg m else Z.pos m) e s
  | S754_zero s => S754_zero s
  | S754_infinity s => S754_infinity s
  | S754_nan => S754_nan
  end.
