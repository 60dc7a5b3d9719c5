(** * VecModel: monolish::vector, view1D and the vector BLAS / VML kernels (model only).

    All objects live in a memory of several buffers (Mem.v).  A vector-like argument of a
    BLAS function (vector<T>, view1D<vector>, view1D<Dense>, view1D<tensor_Dense>) is
    represented by what the kernels use of it: [begin()] and [size()].
    Host memory only; logger calls omitted (LoggerModel.v); MKL and MPI off. *)
From Verif Require Import Base Scalar Mem.
Set Implicit Arguments.

(** a vector-like BLAS argument: begin() and size() *)
Record arg := mkArg { a_ptr : ptr; a_len : nat }.

Section VecModel.
Context {F : Type} {SF : Scalar F}.
Notation mem := (mem F).
Notation prog := (prog F).

(** an API call made of argument checks (C asserts) and one parallel loop *)
Record kernel := mkKernel { k_assert : bool; k_n : nat; k_body : nat -> prog unit }.

(** its meaning when executed by one thread *)
Definition kernel_seq (k : kernel) (m : mem) : res mem :=
  assert_ (k_assert k) ;;; seq_for (k_n k) (k_body k) m.

(** its meaning under every schedule: the asserts hold and the loop safely and
    deterministically produces [m'] *)
Definition kernel_result (k : kernel) (m m' : mem) : Prop :=
  k_assert k = true /\ par_result (k_n k) (k_body k) m m'.

(** ** loop bodies *)

(** y[i] = v *)
Definition map0 (v : F) (y : ptr) (i : nat) : prog unit := padd y i <== v ;; Ret tt.
(** y[i] = g(a[i]) *)
Definition map1 (g : F -> F) (a y : ptr) (i : nat) : prog unit :=
  x <-- padd a i ;; padd y i <== g x ;; Ret tt.
(** y[i] = g(a[i], b[i]) *)
Definition map2 (g : F -> F -> F) (a b y : ptr) (i : nat) : prog unit :=
  x <-- padd a i ;; z <-- padd b i ;; padd y i <== g x z ;; Ret tt.

(** std::max(a,b) = (a < b) ? b : a;  std::min(a,b) = (b < a) ? b : a *)
Definition fmax (a b : F) : F := if fltb a b then b else a.
Definition fmin (a b : F) : F := if fltb b a then b else a.

Definition same2 (x y : arg) : bool := a_len x =? a_len y.
(** monolish_common.hpp:891-895 variadic is_same_size *)
Definition same3 (x y z : arg) : bool := same2 x y && same2 x z.

(** ** BLAS-1 with vector output (src/blas/vector/) *)

(** axpy.hpp:6-34.  cblas_daxpy is external: modelled by the reference-BLAS loop
    y[i] = y[i] + alpha * x[i] *)
Definition k_axpy (alpha : F) (x y : arg) : kernel :=
  mkKernel (same2 x y) (a_len x)
    (map2 (fun a b => fadd b (fmul alpha a)) (a_ptr x) (a_ptr y) (a_ptr y)).

(** axpyz.hpp:6-37  z[i] = alpha * x[i] + y[i] *)
Definition k_axpyz (alpha : F) (x y z : arg) : kernel :=
  mkKernel (same3 x y z) (a_len x)
    (map2 (fun a b => fadd (fmul alpha a) b) (a_ptr x) (a_ptr y) (a_ptr z)).

(** xpay.hpp:6-36  y[i] = x[i] + alpha * y[i] *)
Definition k_xpay (alpha : F) (x y : arg) : kernel :=
  mkKernel (same2 x y) (a_len x)
    (map2 (fun a b => fadd a (fmul alpha b)) (a_ptr x) (a_ptr y) (a_ptr y)).

(** scal.hpp:6-28  cblas_dscal: x[i] = alpha * x[i] (reference BLAS) *)
Definition k_scal (alpha : F) (x : arg) : kernel :=
  mkKernel true (a_len x) (map1 (fun a => fmul alpha a) (a_ptr x) (a_ptr x)).

(** copy.hpp:5-16 with internal::vcopy (double_arithmetic.cpp:232-251, cblas_dcopy) *)
Definition k_copy (x y : arg) : kernel :=
  mkKernel (same2 x y) (a_len y) (map1 (fun a => a) (a_ptr x) (a_ptr y)).

(** vecadd.hpp:5-18, vecsub.hpp:5-18 with internal::vadd / vsub
    (double_arithmetic.cpp:112-134, 141-163) *)
Definition k_vecadd (a b y : arg) : kernel :=
  mkKernel (same3 a b y) (a_len y) (map2 fadd (a_ptr a) (a_ptr b) (a_ptr y)).
Definition k_vecsub (a b y : arg) : kernel :=
  mkKernel (same3 a b y) (a_len y) (map2 fsub (a_ptr a) (a_ptr b) (a_ptr y)).

(** times.hpp:6-19  y = alpha * a, internal::vmul (double_arithmetic.cpp:59-81): a[i] * alpha *)
Definition k_times_scalar (alpha : F) (a y : arg) : kernel :=
  mkKernel (same2 a y) (a_len y) (map1 (fun x => fmul x alpha) (a_ptr a) (a_ptr y)).

(** times.hpp:21-34  y[i] = a[i] * b[i].  Only a and y are compared: the size of [b] is
    not checked (line 27). *)
Definition k_times (a b y : arg) : kernel :=
  mkKernel (same2 a y) (a_len y) (map2 fmul (a_ptr a) (a_ptr b) (a_ptr y)).

(** ** VML (src/vml/vector/) *)

(** arithmetic/vec{add,sub,mul,div}.hpp vv*_core *)
Definition k_vv (g : F -> F -> F) (a b y : arg) : kernel :=
  mkKernel (same3 a b y) (a_len y) (map2 g (a_ptr a) (a_ptr b) (a_ptr y)).
(** arithmetic/vec{add,sub,mul,div}.hpp sv*_core and math_2op unary functions: assert
    is_same_size(a, y), then internal::v*(y.size(), a.begin(), ..., y.begin()) *)
Definition k_v (g : F -> F) (a y : arg) : kernel :=
  mkKernel (same2 a y) (a_len y) (map1 g (a_ptr a) (a_ptr y)).

(** vml::add/sub/mul/div, vector-vector: double_arithmetic.cpp:112-220 *)
Definition k_vml_add := k_vv fadd.
Definition k_vml_sub := k_vv fsub.
Definition k_vml_mul := k_vv fmul.
Definition k_vml_div := k_vv fdiv.
(** vml::max/min, vector-vector: math_1_3op/vec{max,min}.hpp, double_math.cpp:462-484, 543-565 *)
Definition k_vml_max := k_vv fmax.
Definition k_vml_min := k_vv fmin.
(** vector-scalar: double_arithmetic.cpp:9-104, double_math.cpp:486-508, 567-589 *)
Definition k_vml_adds (alpha : F) := k_v (fun x => fadd x alpha).
Definition k_vml_subs (alpha : F) := k_v (fun x => fsub x alpha).
Definition k_vml_muls (alpha : F) := k_v (fun x => fmul x alpha).
Definition k_vml_divs (alpha : F) := k_v (fun x => fdiv x alpha).
Definition k_vml_maxs (alpha : F) := k_v (fun x => fmax x alpha).
Definition k_vml_mins (alpha : F) := k_v (fun x => fmin x alpha).
(** vml::sqrt, reciprocal, sign: double_math.cpp:10-33, double_arithmetic.cpp:308-329,
    double_math.cpp:376-397 ([-1 * a[i]]) *)
Definition k_vml_sqrt := k_v fsqrt.
Definition k_vml_reciprocal := k_v (fun x => fdiv f1 x).
Definition k_vml_sign := k_v (fun x => fmul (fopp f1) x).
(** vml::alo: math_2op/vecalo.hpp, double_math.cpp:594-618 *)
Definition k_vml_alo (alpha beta : F) (a y : arg) : kernel :=
  mkKernel (same2 a y) (a_len a)
    (map1 (fun x => fadd (fmul alpha x) (fmul (fsub beta alpha) (fmin x f0))) (a_ptr a) (a_ptr y)).

(** ** monolish::vector *)

(** include/monolish/common/monolish_vector.hpp:47-80 data members: val (buffer number),
    first, val_nnz, alloc_nnz, val_create_flag *)
Record vec := mkVec { v_buf : nat; v_first : nat; v_nnz : nat; v_alloc : nat; v_own : bool }.

Definition v_begin (v : vec) : ptr := (v_buf v, v_first v).     (* monolish_vector.hpp:323-331 *)
Definition v_data (v : vec) : ptr := (v_buf v, 0).              (* monolish_vector.hpp:307-315 *)
Definition v_arg (v : vec) : arg := mkArg (v_begin v) (v_nnz v).

(** [new Float[N]]: a new buffer; the elements are written before being read *)
Definition malloc (m : mem) (l : list F) : mem * nat := (m ++ [l], length m).
(** the last shared_ptr to a buffer goes away: its elements are no longer accessible *)
Definition mfree (m : mem) (b : nat) : mem := upd m b [].

(** monolish_vector.hpp:446-465  resize(N, Val).  The old buffer is released
    ([val = tmp] drops the last owner; sharing created by [move] is not modelled). *)
Definition vec_resize (m : mem) (v : vec) (N : nat) (Val : F) : res (mem * vec) :=
  if v_own v then
    let copy_size := Nat.min (v_nnz v) N in
    tmp <- for_ 0 copy_size (fun i t => x <- ld m (padd (v_data v) i) ;; wr t i x) (repeat f0 N) ;;
    tmp <- for_ copy_size N (fun i t => wr t i Val) tmp ;;
    let '(m1, b) := malloc (mfree m (v_buf v)) tmp in
    Ok (m1, mkVec b (v_first v) N N (v_own v))
  else Throw.

(** monolish_vector.hpp:473-489  push_back(Val) *)
Definition vec_push_back (m : mem) (v : vec) (Val : F) : res (mem * vec) :=
  if v_own v then
    '(m1, v1) <-
       (if v_alloc v <=? v_nnz v then
          let tmp := v_nnz v in
          let alloc := 2 * v_alloc v + 1 in
          '(m1, v1) <- vec_resize m (mkVec (v_buf v) (v_first v) (v_nnz v) alloc (v_own v)) alloc f0 ;;
          Ok (m1, mkVec (v_buf v1) (v_first v1) tmp (v_alloc v1) (v_own v1))
        else Ok (m, v)) ;;
    m2 <- st m1 (padd (v_data v1) (v_nnz v1)) Val ;;
    Ok (m2, mkVec (v_buf v1) (v_first v1) (v_nnz v1 + 1) (v_alloc v1) (v_own v1))
  else Throw.

(** monolish_vector.hpp:600-605  operator[], as rvalue and as lvalue *)
Definition vec_get (m : mem) (v : vec) (i : nat) : res F := ld m (padd (v_data v) (v_first v + i)).
Definition vec_set (m : mem) (v : vec) (i : nat) (x : F) : res mem :=
  st m (padd (v_data v) (v_first v + i)) x.

(** default constructor (monolish_vector.hpp:80): no buffer *)
Definition vec_empty (m : mem) : mem * vec :=
  let '(m1, b) := malloc m [] in (m1, mkVec b 0 0 0 true).
(** src/utils/vector_constructor.cpp:8-14  vector(N) *)
Definition vec_new (m : mem) (N : nat) : res (mem * vec) :=
  let '(m1, v) := vec_empty m in vec_resize m1 v N f0.
(** vector_constructor.cpp:134-141, 147-154  vector(std::vector) / vector({...}) *)
Definition vec_of_list (m : mem) (l : list F) : res (mem * vec) :=
  '(m1, v) <- vec_new m (length l) ;;
  m2 <- for_ 0 (length l) (fun i m => x <- rd l i ;; st m (padd (v_data v) i) x) m1 ;;
  Ok (m2, v).
(** vector_constructor.cpp:159-176  copy constructor: copies from data(), not begin() *)
Definition vec_copy (m : mem) (v : vec) : res (mem * vec) :=
  '(m1, w) <- vec_new m (v_nnz v) ;;
  m2 <- seq_for (v_nnz v) (map1 (fun a => a) (v_data v) (v_data w)) m1 ;;
  Ok (m2, w).
(** src/utils/fill/fill_vector.cpp:9-31 *)
Definition k_vec_fill (v : vec) (value : F) : kernel :=
  mkKernel true (v_nnz v) (map0 value (v_begin v)).
(** src/utils/copy/copy_vector.cpp:24-37, 42-95  vector = vector / view *)
Definition k_vec_assign (v : vec) (x : arg) : kernel :=
  mkKernel (v_nnz v =? a_len x) (a_len x) (map1 (fun a => a) (a_ptr x) (v_begin v)).
(** src/utils/compare/compare_vector.cpp:10-37  equal / ==, through double_arithmetic.cpp:277-305 *)
Definition vec_equal (m : mem) (x y : arg) : res bool :=
  if negb (a_len x =? a_len y) then Ok false
  else for_ 0 (a_len x) (fun i ans =>
         p <- ld m (padd (a_ptr y) i) ;; q <- ld m (padd (a_ptr x) i) ;;
         Ok (if negb (feqb p q) then false else ans)) true.

(** ** view1D *)

(** include/monolish/common/monolish_view1D.hpp:45-58: target_data (buffer), first, last, range.
    [w_tnnz] is target.get_nnz() *)
Record view := mkView { w_buf : nat; w_first : nat; w_last : nat; w_range : nat; w_tnnz : nat }.

(** monolish_view1D.hpp:68-110  view1D(x, start, size) over a vector / Dense / tensor_Dense:
    [first = start], [target_data = x.data()] (the target's own offset is not added) *)
Definition view_new (v : vec) (start size : nat) : view :=
  mkView (v_buf v) start (start + size) size (v_nnz v).
(** monolish_view1D.hpp:121-167  view of a view *)
Definition view_of_view (x : view) (start size : nat) : view :=
  mkView (w_buf x) (w_first x + start) (w_first x + start + size) size (w_range x).

Definition w_begin (w : view) : ptr := (w_buf w, w_first w).      (* view1D.hpp:304-312 *)
Definition w_end (w : view) : ptr := (w_buf w, w_range w).        (* view1D.hpp:320-328 *)
Definition w_data (w : view) : ptr := (w_buf w, 0).               (* view1D.hpp:288-296 *)
Definition w_arg (w : view) : arg := mkArg (w_begin w) (w_range w).

(** monolish_view1D.hpp:445-450  operator[] *)
Definition view_get (m : mem) (w : view) (i : nat) : res F := ld m (padd (w_data w) (i + w_first w)).
Definition view_set (m : mem) (w : view) (i : nat) (x : F) : res mem :=
  st m (padd (w_data w) (i + w_first w)) x.
(** monolish_view1D.hpp:360-364  resize *)
Definition view_resize (w : view) (N : nat) : res view :=
  assert_ (w_first w + N <=? w_tnnz w) ;;;
  Ok (mkView (w_buf w) (w_first w) (w_first w + N) N (w_tnnz w)).
(** src/utils/fill/fill_view1D.cpp:9-30: for (i = first; i < last; i++) data()[i] = value *)
Definition k_view_fill (w : view) (value : F) : kernel :=
  mkKernel true (w_last w - w_first w) (fun i => map0 value (w_data w) (w_first w + i)).
(** src/utils/copy/copy_view1D.cpp:34-53  view = vector *)
Definition k_view_assign_vec (w : view) (x : vec) : kernel :=
  mkKernel (w_range w =? v_nnz x) (v_nnz x) (map1 (fun a => a) (v_begin x) (w_begin w)).
(** copy_view1D.cpp:67-86 (and 100-119, 133-152)  view = view: the source pointer is
    [vec.begin() + vec.get_offset()] *)
Definition k_view_assign_view (w x : view) : kernel :=
  mkKernel (w_range w =? w_range x) (w_range x)
    (map1 (fun a => a) (padd (w_begin x) (w_first x)) (w_begin w)).
(** copy_view1D.cpp:10-19  view = std::vector *)
Definition view_assign_list (m : mem) (w : view) (l : list F) : res (mem * view) :=
  w1 <- view_resize w (length l) ;;
  m1 <- for_ 0 (length l) (fun i m => x <- rd l i ;; st m (padd (w_begin w1) i) x) m ;;
  Ok (m1, w1).
(** vector_constructor.cpp:181-199  vector(view1D) *)
Definition vec_of_view (m : mem) (w : view) : res (mem * vec) :=
  '(m1, v) <- vec_new m (w_range w) ;;
  m2 <- seq_for (w_range w) (map1 (fun a => a) (padd (w_data w) (w_first w)) (v_data v)) m1 ;;
  Ok (m2, v).

End VecModel.
