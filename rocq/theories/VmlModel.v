(** * VmlModel: element-wise functions (monolish::vml) on Dense, view_Dense, tensor_Dense, view_tensor_Dense, CRS and
    tensor_CRS, and their maximum / minimum (model only).

    Every function is an argument check (C asserts) followed by one flat loop of src/internal over
    the stored values: y[i] = f(a[i]).  Host memory, no MKL; logger omitted; all objects in host memory, so that
    is_same_device_mem_stat holds.  The float instantiation is the same text.  The libm functions are parameters. *)
From Verif Require Import Base Scalar Mem VecModel DenseBlasModel TensorModel TensorBlasModel CrsModel TensorCrsModel ReduceModel.
Set Implicit Arguments.

(** the C library functions the loops call *)
Record libm (F : Type) := mkLibm {
  l_sin : F -> F; l_sinh : F -> F; l_asin : F -> F; l_asinh : F -> F;
  l_tan : F -> F; l_tanh : F -> F; l_atan : F -> F; l_atanh : F -> F;
  l_ceil : F -> F; l_floor : F -> F; l_exp : F -> F; l_pow : F -> F -> F }.

Section VmlModel.
Context {F : Type} {SF : Scalar F}.
Notation kernel := (@kernel F).
Notation reduction := (@reduction F).

(** ** matrix::Dense and view_Dense *)

(** src/vml/matrix/arithmetic/mat{add,sub,mul,div}.hpp:21-35 (A, B, C); math_1_3op/mat{max,min,pow}.hpp:5-19.
    The loop runs over A.get_nnz() (max, min: C.get_nnz(), equal after the asserts). *)
Definition k_mm (g : F -> F -> F) (A B C : marg) : kernel :=
  mkKernel (msame A B && msame A C) (g_nnz A) (map2 g (g_begin A) (g_begin B) (g_begin C)).
(** arithmetic/mat{add,sub,mul,div}.hpp:6-19 (A, alpha, C); math_1_3op/mat{max,min,pow}.hpp:21-35; math_2op/mat*.hpp:5-17 *)
Definition k_m1 (g : F -> F) (A C : marg) : kernel :=
  mkKernel (msame A C) (g_nnz A) (map1 g (g_begin A) (g_begin C)).

(** src/internal/arithmetic/double_arithmetic.cpp:112-138, 141-167, 170-196, 199-225 *)
Definition k_mm_add := k_mm fadd.
Definition k_mm_sub := k_mm fsub.
Definition k_mm_mul := k_mm fmul.
Definition k_mm_div := k_mm fdiv.
(** src/internal/math/double_math.cpp:462-484, 543-565 (std::max, std::min), 40-66 (std::pow) *)
Definition k_mm_max := k_mm fmax.
Definition k_mm_min := k_mm fmin.
Definition k_mm_pow (L : libm F) := k_mm (l_pow L).
(** double_arithmetic.cpp:9-31, 34-56, 59-81, 84-106 *)
Definition k_ms_add (alpha : F) := k_m1 (fun x => fadd x alpha).
Definition k_ms_sub (alpha : F) := k_m1 (fun x => fsub x alpha).
Definition k_ms_mul (alpha : F) := k_m1 (fun x => fmul x alpha).
Definition k_ms_div (alpha : F) := k_m1 (fun x => fdiv x alpha).
(** double_math.cpp:486-508, 567-589, 68-94 *)
Definition k_ms_max (alpha : F) := k_m1 (fun x => fmax x alpha).
Definition k_ms_min (alpha : F) := k_m1 (fun x => fmin x alpha).
Definition k_ms_pow (L : libm F) (alpha : F) := k_m1 (fun x => l_pow L x alpha).
(** matsin.hpp ... matfloor.hpp; double_math.cpp:99-371, 402-427, 10-35 *)
Definition k_m_sin (L : libm F) := k_m1 (l_sin L).
Definition k_m_sinh (L : libm F) := k_m1 (l_sinh L).
Definition k_m_asin (L : libm F) := k_m1 (l_asin L).
Definition k_m_asinh (L : libm F) := k_m1 (l_asinh L).
Definition k_m_tan (L : libm F) := k_m1 (l_tan L).
Definition k_m_tanh (L : libm F) := k_m1 (l_tanh L).
Definition k_m_atan (L : libm F) := k_m1 (l_atan L).
Definition k_m_atanh (L : libm F) := k_m1 (l_atanh L).
Definition k_m_ceil (L : libm F) := k_m1 (l_ceil L).
Definition k_m_floor (L : libm F) := k_m1 (l_floor L).
Definition k_m_exp (L : libm F) := k_m1 (l_exp L).
Definition k_m_sqrt := k_m1 fsqrt.
(** double_arithmetic.cpp:308-329 (1.0 / a[i]); double_math.cpp:376-397 (-1 * a[i]) *)
Definition k_m_reciprocal := k_m1 (fun x => fdiv f1 x).
Definition k_m_sign := k_m1 (fun x => fmul (fopp f1) x).
(** double_math.cpp:594-618: gamma = beta - alpha; alpha * a[i] + gamma * std::min(a[i], 0) *)
Definition alo (alpha beta x : F) : F := fadd (fmul alpha x) (fmul (fsub beta alpha) (fmin x f0)).
(** math_2op/matalo.hpp:5-19 *)
Definition k_m_alo (alpha beta : F) := k_m1 (alo alpha beta).

(** ** tensor_Dense and view_tensor_Dense *)

(** src/vml/tensor/arithmetic/tens{add,sub,mul,div}.hpp:21-35; math_1_3op/tens{max,min,pow}.hpp:5-19 *)
Definition k_tt (g : F -> F -> F) (A B C : targ) : kernel :=
  mkKernel (tsame A B && tsame A C) (h_nnz A) (map2 g (h_begin A) (h_begin B) (h_begin C)).
(** arithmetic/tens{add,sub,mul,div}.hpp:6-19; math_1_3op/tens{max,min,pow}.hpp:21-35; math_2op/tens*.hpp:5-17 *)
Definition k_t1 (g : F -> F) (A C : targ) : kernel :=
  mkKernel (tsame A C) (h_nnz A) (map1 g (h_begin A) (h_begin C)).
(** the same internal functions as for matrices *)
Definition k_tt_add := k_tt fadd.
Definition k_tt_sub := k_tt fsub.
Definition k_tt_mul := k_tt fmul.
Definition k_tt_div := k_tt fdiv.
Definition k_tt_max := k_tt fmax.
Definition k_tt_min := k_tt fmin.
Definition k_tt_pow (L : libm F) := k_tt (l_pow L).
Definition k_ts_add (alpha : F) := k_t1 (fun x => fadd x alpha).
Definition k_ts_sub (alpha : F) := k_t1 (fun x => fsub x alpha).
Definition k_ts_mul (alpha : F) := k_t1 (fun x => fmul x alpha).
Definition k_ts_div (alpha : F) := k_t1 (fun x => fdiv x alpha).
Definition k_ts_max (alpha : F) := k_t1 (fun x => fmax x alpha).
Definition k_ts_min (alpha : F) := k_t1 (fun x => fmin x alpha).
Definition k_ts_pow (L : libm F) (alpha : F) := k_t1 (fun x => l_pow L x alpha).
(** src/vml/tensor/math_2op/tenssin.hpp:5-17 and the other files of the directory *)
Definition k_t_sin (L : libm F) := k_t1 (l_sin L).
Definition k_t_sinh (L : libm F) := k_t1 (l_sinh L).
Definition k_t_asin (L : libm F) := k_t1 (l_asin L).
Definition k_t_asinh (L : libm F) := k_t1 (l_asinh L).
Definition k_t_tan (L : libm F) := k_t1 (l_tan L).
Definition k_t_tanh (L : libm F) := k_t1 (l_tanh L).
Definition k_t_atan (L : libm F) := k_t1 (l_atan L).
Definition k_t_atanh (L : libm F) := k_t1 (l_atanh L).
Definition k_t_ceil (L : libm F) := k_t1 (l_ceil L).
Definition k_t_floor (L : libm F) := k_t1 (l_floor L).
Definition k_t_exp (L : libm F) := k_t1 (l_exp L).
Definition k_t_sqrt := k_t1 fsqrt.
Definition k_t_reciprocal := k_t1 (fun x => fdiv f1 x).
Definition k_t_sign := k_t1 (fun x => fmul (fopp f1) x).
(** src/vml/tensor/math_2op/tensalo.hpp:5-19 *)
Definition k_t_alo (alpha beta : F) := k_t1 (alo alpha beta).

(** ** matrix::CRS: distinct arguments are distinct objects; loops sequential *)

(** the loop of the internal functions on begin() *)
Definition crs_map1 (g : F -> F) (A C : crs F) : res (crs F) :=
  v <- for_ 0 (m_nnz A) (fun i v => p <- rd (m_val A) (m_first A + i) ;; wr v (m_first C + i) (g p)) (m_val C) ;;
  Ok (m_set_val C v).
(** (A, B, C) functions: matadd.hpp:21-35 etc. = [crs_matop g] (same asserts, same loop) *)
Definition crs_vml2 (g : F -> F -> F) (A B C : crs F) : res (crs F) := crs_matop g A B C.
(** math_2op/mat*.hpp:5-17, matalo.hpp:5-19, math_1_3op/mat{max,min,pow}.hpp:21-35.  For max and min the loop runs over
    C.get_nnz(); the hash comparison makes it A.get_nnz() for objects whose hash is up to date *)
Definition crs_vml1 (g : F -> F) (A C : crs F) : res (crs F) :=
  assert_ (crs_same_size A C) ;;; assert_ (crs_same_structure A C) ;;; crs_map1 g A C.
(** math_1_3op/mat{max,min}.hpp:21-35 *)
Definition crs_vml1_c (g : F -> F) (A C : crs F) : res (crs F) :=
  assert_ (crs_same_size A C) ;;; assert_ (crs_same_structure A C) ;;;
  v <- for_ 0 (m_nnz C) (fun i v => p <- rd (m_val A) (m_first A + i) ;; wr v (m_first C + i) (g p)) (m_val C) ;;
  Ok (m_set_val C v).
(** arithmetic/mat{add,sub,mul,div}.hpp:6-19 (A, alpha, C): only the sizes are compared *)
Definition crs_vml_s (g : F -> F) (A C : crs F) : res (crs F) :=
  assert_ (crs_same_size A C) ;;; crs_map1 g A C.
Definition crs_s_add (alpha : F) := crs_vml_s (fun x => fadd x alpha).
Definition crs_s_sub (alpha : F) := crs_vml_s (fun x => fsub x alpha).
Definition crs_s_mul (alpha : F) := crs_vml_s (fun x => fmul x alpha).
Definition crs_s_div (alpha : F) := crs_vml_s (fun x => fdiv x alpha).
Definition crs_s_max (alpha : F) := crs_vml1_c (fun x => fmax x alpha).
Definition crs_s_min (alpha : F) := crs_vml1_c (fun x => fmin x alpha).
Definition crs_s_pow (L : libm F) (alpha : F) := crs_vml1 (fun x => l_pow L x alpha).
Definition crs_add := crs_vml2 fadd.
Definition crs_sub := crs_vml2 fsub.
Definition crs_mul := crs_vml2 fmul.
Definition crs_div := crs_vml2 fdiv.
Definition crs_max2 := crs_vml2 fmax.
Definition crs_min2 := crs_vml2 fmin.
Definition crs_pow2 (L : libm F) := crs_vml2 (l_pow L).
Definition crs_sin (L : libm F) := crs_vml1 (l_sin L).
Definition crs_sinh (L : libm F) := crs_vml1 (l_sinh L).
Definition crs_asin (L : libm F) := crs_vml1 (l_asin L).
Definition crs_asinh (L : libm F) := crs_vml1 (l_asinh L).
Definition crs_tan (L : libm F) := crs_vml1 (l_tan L).
Definition crs_tanh (L : libm F) := crs_vml1 (l_tanh L).
Definition crs_atan (L : libm F) := crs_vml1 (l_atan L).
Definition crs_atanh (L : libm F) := crs_vml1 (l_atanh L).
Definition crs_ceil (L : libm F) := crs_vml1 (l_ceil L).
Definition crs_floor (L : libm F) := crs_vml1 (l_floor L).
Definition crs_exp (L : libm F) := crs_vml1 (l_exp L).
Definition crs_sqrt := crs_vml1 fsqrt.
Definition crs_reciprocal := crs_vml1 (fun x => fdiv f1 x).
Definition crs_sign := crs_vml1 (fun x => fmul (fopp f1) x).
Definition crs_alo (alpha beta : F) := crs_vml1 (alo alpha beta).

(** ** tensor::tensor_CRS *)

(** tens{add,sub,mul,div}.hpp:21-35, tens{max,min,pow}.hpp:5-19: asserts and loop of [tr_tensop] *)
Definition tr_vml2 (g : F -> F -> F) (A B C : tcrs F) : res (tcrs F) := tr_tensop g A B C.
(** tensor/math_2op/tens*.hpp:5-17, tensalo.hpp:5-19, tenspow.hpp:21-35, tens{max,min}.hpp:21-35 (loop over C.get_nnz(),
    taken equal to A.get_nnz(): the theorems assume equal index arrays) *)
Definition tr_vml1 (g : F -> F) (A C : tcrs F) : res (tcrs F) :=
  assert_ (tr_same_size A C) ;;; s <- tr_same_structure A C ;; assert_ s ;;; tr_map1 g A C.
(** tens{add,sub,mul,div}.hpp:6-19 (A, alpha, C): only the shapes are compared *)
Definition tr_vml_s (g : F -> F) (A C : tcrs F) : res (tcrs F) :=
  assert_ (tr_same_size A C) ;;; tr_map1 g A C.
Definition tr_s_add (alpha : F) := tr_vml_s (fun x => fadd x alpha).
Definition tr_s_sub (alpha : F) := tr_vml_s (fun x => fsub x alpha).
Definition tr_s_mul (alpha : F) := tr_vml_s (fun x => fmul x alpha).
Definition tr_s_div (alpha : F) := tr_vml_s (fun x => fdiv x alpha).
Definition tr_s_max (alpha : F) := tr_vml1 (fun x => fmax x alpha).
Definition tr_s_min (alpha : F) := tr_vml1 (fun x => fmin x alpha).
Definition tr_s_pow (L : libm F) (alpha : F) := tr_vml1 (fun x => l_pow L x alpha).
Definition tr_add := tr_vml2 fadd.
Definition tr_sub := tr_vml2 fsub.
Definition tr_mul := tr_vml2 fmul.
Definition tr_div := tr_vml2 fdiv.
Definition tr_max2 := tr_vml2 fmax.
Definition tr_min2 := tr_vml2 fmin.
Definition tr_pow2 (L : libm F) := tr_vml2 (l_pow L).
Definition tr_sin (L : libm F) := tr_vml1 (l_sin L).
Definition tr_sinh (L : libm F) := tr_vml1 (l_sinh L).
Definition tr_asin (L : libm F) := tr_vml1 (l_asin L).
Definition tr_asinh (L : libm F) := tr_vml1 (l_asinh L).
Definition tr_tan (L : libm F) := tr_vml1 (l_tan L).
Definition tr_tanh (L : libm F) := tr_vml1 (l_tanh L).
Definition tr_atan (L : libm F) := tr_vml1 (l_atan L).
Definition tr_atanh (L : libm F) := tr_vml1 (l_atanh L).
Definition tr_ceil (L : libm F) := tr_vml1 (l_ceil L).
Definition tr_floor (L : libm F) := tr_vml1 (l_floor L).
Definition tr_exp (L : libm F) := tr_vml1 (l_exp L).
Definition tr_sqrt := tr_vml1 fsqrt.
Definition tr_reciprocal := tr_vml1 (fun x => fdiv f1 x).
Definition tr_sign := tr_vml1 (fun x => fmul (fopp f1) x).
Definition tr_alo (alpha beta : F) := tr_vml1 (alo alpha beta).

(** ** maximum and minimum of all elements *)

(** src/vml/matrix/math_1_3op/matmax.hpp:37-49, src/vml/tensor/math_1_3op/tensmax.hpp:37-49: internal::vmax over C.get_nnz() elements
    from C.begin(); [exact_type]: the argument's static type is matrix::Dense / tensor_Dense (the typeid comparison);
    otherwise std::max(max, 0) *)
Definition r_max_of (exact_type : bool) (lowest : F) (p : ptr) (n : nat) : reduction :=
  let k := r_max lowest (mkArg p n) in
  mkRed (r_assert k) (r_orig k) (r_n k) (r_term k) (r_ident k) (r_step k) (r_comb k)
        (fun v => if exact_type then v else fmax v f0).
(** matmin.hpp:37-49, tensmin.hpp:37-49: std::min(min, 0) *)
Definition r_min_of (exact_type : bool) (greatest : F) (p : ptr) (n : nat) : reduction :=
  let k := r_min greatest (mkArg p n) in
  mkRed (r_assert k) (r_orig k) (r_n k) (r_term k) (r_ident k) (r_step k) (r_comb k)
        (fun v => if exact_type then v else fmin v f0).
(** matrix_vml.cpp:7351-7409: matrix::Dense; view_Dense of vector, Dense, tensor_Dense; CRS (its values in buffer b) *)
Definition dense_max (lowest : F) (A : marg) : reduction := r_max_of true lowest (g_begin A) (g_nnz A).
Definition view_dense_max (lowest : F) (A : marg) : reduction := r_max_of false lowest (g_begin A) (g_nnz A).
Definition crs_max (lowest : F) (A : crs F) (b : nat) : reduction := r_max_of false lowest (b, m_first A) (m_nnz A).
Definition dense_min (greatest : F) (A : marg) : reduction := r_min_of true greatest (g_begin A) (g_nnz A).
Definition view_dense_min (greatest : F) (A : marg) : reduction := r_min_of false greatest (g_begin A) (g_nnz A).
Definition crs_min (greatest : F) (A : crs F) (b : nat) : reduction := r_min_of false greatest (b, m_first A) (m_nnz A).
(** src/vml/tensor/tensor_vml.cpp:7574-7636: tensor_Dense; view_tensor_Dense; tensor_CRS *)
Definition tens_max (lowest : F) (A : targ) : reduction := r_max_of true lowest (h_begin A) (h_nnz A).
Definition view_tens_max (lowest : F) (A : targ) : reduction := r_max_of false lowest (h_begin A) (h_nnz A).
Definition tr_max (lowest : F) (A : tcrs F) (b : nat) : reduction := r_max_of false lowest (b, k_first A) (k_nnz A).
Definition tens_min (greatest : F) (A : targ) : reduction := r_min_of true greatest (h_begin A) (h_nnz A).
Definition view_tens_min (greatest : F) (A : targ) : reduction := r_min_of false greatest (h_begin A) (h_nnz A).
Definition tr_min (greatest : F) (A : tcrs F) (b : nat) : reduction := r_min_of false greatest (b, k_first A) (k_nnz A).
End VmlModel.
