(** * ViewModel: view_Dense and view_tensor_Dense objects (model only, no proofs).

    The target of a view is passed explicitly and returned when it changes (the class holds a reference and a raw
    pointer into it).  Not modelled: a target that is resized or destroyed while a view of it exists (the raw
    pointer [target_data] then dangles), device memory.  OpenMP loops are written in sequential order. *)
From Verif Require Import Base Scalar DenseModel TensorModel.
Set Implicit Arguments.

(** first, last, range: include/monolish/common/monolish_view_dense.hpp:50-60,
    monolish_view_tensor_dense.hpp:50-60 *)
Record win := mkWin { n_first : nat; n_last : nat; n_range : nat }.
(** view_Dense: the window and rowN, colN *)
Record vdense := mkVD { vd_win : win; vd_row : nat; vd_col : nat }.
(** view_tensor_Dense: the window and the shape *)
Record vtens := mkVT { vt_win : win; vt_shape : list nat }.

(** the referenced object.  [TgVec val nnz]: monolish::vector (buffer, get_nnz()); [TgView w t]: a view with window
    [w] of [t] *)
Inductive target (F : Type) : Type :=
| TgVec (val : list F) (nnz : nat)
| TgDense (d : dense F)
| TgTens (t : tdense F)
| TgView (w : win) (t : target F).
Arguments TgVec {F}. Arguments TgDense {F}. Arguments TgTens {F}. Arguments TgView {F}.

Section ViewModel.
Context {F : Type} {SF : Scalar F}.
Notation target := (target F).

(** target.get_nnz(): monolish_vector.hpp, monolish_dense.hpp, monolish_tensor_dense.hpp (the number of elements);
    monolish_view_dense.hpp:256 / monolish_view_tensor_dense.hpp:260 (the range) *)
Definition tg_nnz (t : target) : nat :=
  match t with TgVec _ n => n | TgDense d => d_nnz d | TgTens t => t_nnz t | TgView w _ => n_range w end.

(** target.data(): the start of the buffer (not of the elements, if the object is itself a window);
    monolish_view_dense.hpp:421-429: target_data *)
Fixpoint tg_data (t : target) : list F :=
  match t with TgVec v _ => v | TgDense d => d_val d | TgTens t => t_val t | TgView _ t => tg_data t end.
Fixpoint tg_put (t : target) (v : list F) : target :=
  match t with
  | TgVec _ n => TgVec v n
  | TgDense d => TgDense (d_set_val d v)
  | TgTens t => TgTens (t_set_val t v)
  | TgView w t => TgView w (tg_put t v)
  end.

(** target.at(i): Dense and tensor_Dense (at_insert_sort_dense.cpp:9-18, at_insert_sort_tensor_dense.cpp:10-19),
    views (monolish_view_dense.hpp:330, monolish_view_tensor_dense.hpp:316-318).  monolish::vector has no at():
    the call does not compile; written UB here and excluded by the theorems. *)
Fixpoint tg_at (t : target) (i : nat) : res F :=
  match t with
  | TgVec _ _ => UB
  | TgDense d => dense_at1 d i
  | TgTens t => td_at1 t i
  | TgView w t => tg_at t (n_first w + i)
  end.
(** target.insert(i, Val): at_insert_sort_dense.cpp:36-45, at_insert_sort_tensor_dense.cpp:36-46,
    monolish_view_dense.hpp:382-385, monolish_view_tensor_dense.hpp:429-432 *)
Fixpoint tg_insert (t : target) (i : nat) (x : F) : res target :=
  match t with
  | TgVec _ _ => UB
  | TgDense d => d <- dense_insert1 d i x ;; Ok (TgDense d)
  | TgTens t => t <- td_insert1 t i x ;; Ok (TgTens t)
  | TgView w t => t <- tg_insert t (n_first w + i) x ;; Ok (TgView w t)
  end.

(** ** constructors *)

(** x.get_first() for a target that is a view, 0 otherwise: the constructors for views add it to [start] *)
Definition tg_base (t : target) : nat := match t with TgView w _ => n_first w | _ => 0 end.

(** monolish_view_dense.hpp:73-193: first = (x.get_first() +) start; range = row * col; last = first + range.
    The window is not checked against the target. *)
Definition vd_new (t : target) (start row col : nat) : vdense :=
  let first := tg_base t + start in
  mkVD (mkWin first (first + row * col) (row * col)) row col.
(** monolish_view_tensor_dense.hpp:71-181 and calc_range 220-226 *)
Definition vt_new (t : target) (start : nat) (shape : list nat) : vtens :=
  let first := tg_base t + start in
  mkVT (mkWin first (first + t_count shape) (t_count shape)) shape.

(** ** element access *)

(** monolish_view_dense.hpp:330  at(i) *)
Definition vd_at1 (v : vdense) (t : target) (i : nat) : res F := tg_at t (n_first (vd_win v) + i).
(** monolish_view_dense.hpp:342-344  at(i, j): no check against rowN and colN *)
Definition vd_at (v : vdense) (t : target) (i j : nat) : res F :=
  tg_at t (n_first (vd_win v) + i * vd_col v + j).
(** monolish_view_dense.hpp:382-385  insert(i, Val) *)
Definition vd_insert1 (v : vdense) (t : target) (i : nat) (x : F) : res target :=
  tg_insert t (n_first (vd_win v) + i) x.
(** monolish_view_dense.hpp:397-400  insert(i, j, Val) *)
Definition vd_insert (v : vdense) (t : target) (i j : nat) (x : F) : res target :=
  tg_insert t (n_first (vd_win v) + i * vd_col v + j) x.

(** monolish_view_tensor_dense.hpp:316-318  at(pos), 329-331  at(std::vector), 652-662  get_index *)
Definition vt_at1 (v : vtens) (t : target) (i : nat) : res F := tg_at t (n_first (vt_win v) + i).
Definition vt_at (v : vtens) (t : target) (pos : list nat) : res F :=
  ind <- t_index (vt_shape v) pos ;; tg_at t (n_first (vt_win v) + ind).
(** monolish_view_tensor_dense.hpp:429-432, 443-446  insert *)
Definition vt_insert1 (v : vtens) (t : target) (i : nat) (x : F) : res target :=
  tg_insert t (n_first (vt_win v) + i) x.
Definition vt_insert (v : vtens) (t : target) (pos : list nat) (x : F) : res target :=
  ind <- t_index (vt_shape v) pos ;; tg_insert t (n_first (vt_win v) + ind) x.

(** monolish_view_dense.hpp:587-592, monolish_view_tensor_dense.hpp:636-641  operator[] as a value and as an
    assignment target: target_data[i + first] *)
Definition n_get (w : win) (t : target) (i : nat) : res F := rd (tg_data t) (i + n_first w).
Definition n_set (w : win) (t : target) (i : nat) (x : F) : res target :=
  v <- wr (tg_data t) (i + n_first w) x ;; Ok (tg_put t v).
(** begin() and end() as positions in the buffer: monolish_view_dense.hpp:453-477,
    monolish_view_tensor_dense.hpp:507-531 *)
Definition n_begin (w : win) : nat := n_first w.
Definition n_end (w : win) : nat := n_range w.

(** src/utils/fill/fill_view_dense.cpp:9-30, src/utils/fill/fill_view_tensor_dense.cpp:9-30:
    for (i = first; i < last; i++) data()[i] = value *)
Definition n_fill (w : win) (t : target) (x : F) : res target :=
  v <- for_ (n_first w) (n_last w) (fun i v => wr v i x) (tg_data t) ;; Ok (tg_put t v).

(** internal::vcopy(get_nnz(), mat.begin(), begin()): cblas_dcopy
    (src/internal/arithmetic/double_arithmetic.cpp:232-253).  [src]: the buffer of the other object, not the one
    of the target; [off]: the position of its begin() *)
Definition n_copy_from (w : win) (t : target) (src : list F) (off : nat) : res target :=
  v <- for_ 0 (n_range w) (fun i v => x <- rd src (off + i) ;; wr v (n_begin w + i) x) (tg_data t) ;; Ok (tg_put t v).
(** src/utils/copy/copy_view_dense.cpp:9-27  view_Dense = Dense: is_same_size compares rows and columns *)
Definition vd_assign_dense (v : vdense) (t : target) (d : dense F) : res target :=
  assert_ ((vd_row v =? d_row d) && (vd_col v =? d_col d)) ;;;
  n_copy_from (vd_win v) t (d_val d) (d_first d).
(** copy_view_dense.cpp:41-58, 73-90, 105-123  view_Dense = view_Dense (of another object) *)
Definition vd_assign_view (v : vdense) (t : target) (u : vdense) (s : target) : res target :=
  assert_ ((vd_row v =? vd_row u) && (vd_col v =? vd_col u)) ;;;
  n_copy_from (vd_win v) t (tg_data s) (n_begin (vd_win u)).
(** src/utils/copy/copy_view_tensor_dense.cpp:10-28  view_tensor_Dense = tensor_Dense: is_same_size compares the
    shapes *)
Definition vt_assign_tens (v : vtens) (t : target) (s : tdense F) : res target :=
  assert_ (if list_eq_dec Nat.eq_dec (vt_shape v) (t_shape s) then true else false) ;;;
  n_copy_from (vt_win v) t (t_val s) (t_first s).
(** copy_view_tensor_dense.cpp:43-61, 77-95, 111-129  view_tensor_Dense = view_tensor_Dense (of another object) *)
Definition vt_assign_view (v : vtens) (t : target) (u : vtens) (s : target) : res target :=
  assert_ (if list_eq_dec Nat.eq_dec (vt_shape v) (vt_shape u) then true else false) ;;;
  n_copy_from (vt_win v) t (tg_data s) (n_begin (vt_win u)).

(** ** changing the window *)

(** monolish_view_dense.hpp:499-505  resize(row, col) *)
Definition vd_resize (v : vdense) (t : target) (row col : nat) : res vdense :=
  assert_ (n_first (vd_win v) + row * col <=? tg_nnz t) ;;;
  let first := n_first (vd_win v) in
  Ok (mkVD (mkWin first (first + row * col) (row * col)) row col).
(** monolish_view_tensor_dense.hpp:553-558  resize(shape) *)
Definition vt_resize (v : vtens) (t : target) (shape : list nat) : res vtens :=
  assert_ (n_first (vt_win v) + t_count shape <=? tg_nnz t) ;;;
  let first := n_first (vt_win v) in
  Ok (mkVT (mkWin first (first + t_count shape) (t_count shape)) shape).
(** monolish_view_dense.hpp:298, monolish_view_tensor_dense.hpp:295  set_first: last and range stay *)
Definition n_set_first (w : win) (i : nat) : win := mkWin i (n_last w) (n_range w).
(** monolish_view_dense.hpp:305-308, monolish_view_tensor_dense.hpp:302-305  set_last: range stays *)
Definition n_set_last (w : win) (t : target) (i : nat) : res win :=
  assert_ (n_first w + i <=? tg_nnz t) ;;; Ok (mkWin (n_first w) i (n_range w)).
End ViewModel.
