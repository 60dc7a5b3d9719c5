(** * TensorBlasModel: moves between tensors, matrices and vectors, and tensor BLAS (model only).

    A tensor argument (tensor_Dense or view_tensor_Dense) is represented by what the operations use of
    it: data(), get_first() and the shape; begin() = data() + get_first(), get_nnz() = product of the
    shape (monolish_tensor_dense.hpp:642-687, monolish_view_tensor_dense.hpp:69-79, 223-229, 254-262).
    All objects live in one memory.  Host memory, no MKL; size_t as natural numbers, [int] with its
    32-bit range.  An operation is a [res kernel]: the moves may throw before any loop starts. *)
From Verif Require Import Base Scalar Mem VecModel DenseBlasModel TensorModel.
Set Implicit Arguments.

(** monolish_tensor_dense.hpp:17-49, monolish_view_tensor_dense.hpp:51-59 (data members) *)
Record targ := mkTarg { h_data : ptr; h_first : nat; h_shape : list nat }.
(** monolish_tensor_dense.hpp begin(), monolish_view_tensor_dense.hpp begin() *)
Definition h_begin (A : targ) : ptr := padd (h_data A) (h_first A).
(** monolish_view_tensor_dense.hpp:223-229 calc_range *)
Definition h_nnz (A : targ) : nat := t_count (h_shape A).

(** ** moves *)

(** int multiplication: overflow is undefined *)
Definition int_mul (a b : Z) : res Z :=
  if ((- 2 ^ 31 <=? a * b) && (a * b <? 2 ^ 31))%Z then Ok (a * b)%Z else UB.

(** move_dense.cpp:126-149 (tensor_Dense), 167-186 ff. (views, the same): the dimensions chosen by
    Dense::move(tensor, rowN, colN); [nnz / colN] is a size_t division, its result is stored in an int;
    the comparison converts the int product to size_t *)
Definition move_dims (nnz : nat) (rowN colN : Z) : res (nat * nat) :=
  require_ (negb ((rowN <? 0) && (colN <? 0))%Z) ;;;
  rowN <- (if (rowN <? 0)%Z then (if (colN =? 0)%Z then UB else Ok (int_of (nnz / Z.to_nat colN))) else Ok rowN) ;;
  colN <- (if (colN <? 0)%Z then (if (rowN =? 0)%Z then UB else Ok (int_of (nnz / Z.to_nat rowN))) else Ok colN) ;;
  p <- int_mul rowN colN ;;
  require_ (p mod 2 ^ 64 =? Z.of_nat nnz)%Z ;;;
  Ok (Z.to_nat rowN, Z.to_nat colN).

(** move_dense.cpp:125-159  Dense::move(tensor, rowN, colN): same buffer, same first *)
Definition move_dense2 (A : targ) (rowN colN : Z) : res marg :=
  '(r, c) <- move_dims (h_nnz A) rowN colN ;;
  Ok (mkMarg (h_data A) (h_first A) r c).
(** move_dense.cpp:10-31  Dense::move(tensor): rank 2 only *)
Definition move_dense (A : targ) : res marg :=
  match h_shape A with
  | [r; c] => Ok (mkMarg (h_data A) (h_first A) r c)
  | _ => Throw
  end.
(** move_view_dense.cpp:46-77  view_Dense::move(view_tensor, rowN, colN): checks rowN and colN, then
    takes the dimensions from shape[0] and shape[1] *)
Definition move_view_dense2 (A : targ) (rowN colN : Z) : res marg :=
  _ <- move_dims (h_nnz A) rowN colN ;;
  r <- rd (h_shape A) 0 ;; c <- rd (h_shape A) 1 ;;
  Ok (mkMarg (h_data A) (h_first A) r c).
(** move_vector.cpp:116-138  vector::move(tensor, nnz); the comparison is int against size_t *)
Definition move_vector1 (A : targ) (nnz : Z) : res arg :=
  let nnz := if (nnz <? 0)%Z then int_of (h_nnz A) else nnz in
  require_ (nnz mod 2 ^ 64 =? Z.of_nat (h_nnz A))%Z ;;;
  Ok (mkArg (h_begin A) (h_nnz A)).
(** move_vector.cpp:9-29  vector::move(tensor): rank 1 only *)
Definition move_vector (A : targ) : res arg :=
  match h_shape A with [_] => Ok (mkArg (h_begin A) (h_nnz A)) | _ => Throw end.
(** move_tensor_dense.cpp:10-29  tensor_Dense::move(Dense) *)
Definition move_tensor_mat (A : marg) : targ := mkTarg (g_data A) (g_first A) [g_row A; g_col A].
(** move_tensor_dense.cpp:34-50  tensor_Dense::move(vector); [first] is the vector's get_first() *)
Definition move_tensor_vec (data : ptr) (first nnz : nat) : targ := mkTarg data first [nnz].

Section TensorBlasModel.
Context {F : Type} {SF : Scalar F}.
Notation prog := (prog F).
Notation kernel := (@kernel F).

(** shape[shape.size()-1]; undefined for rank 0 *)
Definition last_dim (s : list nat) : res nat := rd s (length s - 1).
Definition first_dim (s : list nat) : res nat := rd s 0.

(** ** products *)

(** tensvec/tensor_dense_tensvec.hpp:8-26 (double; float 29-47); all public calls have transA = false
    (tensvec_blas.cpp) *)
Definition k_tensvec_ab (a : F) (A : targ) (x : arg) (b : F) (y : targ) : res kernel :=
  d <- last_dim (h_shape A) ;;
  Amat <- move_dense2 A (-1) (int_of d) ;;
  yvec <- move_vector1 y (-1) ;;
  Ok (k_matvec_ab a Amat x b yvec false).
(** tensmat/tensor_dense-dense_tensmat.hpp:8-28 (double; float 31-51); transA = transB = false *)
Definition k_tensmat_ab (a : F) (A : targ) (B : marg) (b : F) (C : targ) : res kernel :=
  d <- last_dim (h_shape A) ;;
  Amat <- move_dense2 A (-1) (int_of d) ;;
  Cmat <- move_dense2 C (int_of (g_row Amat)) (int_of (g_col B)) ;;
  Ok (k_matmul_ab a Amat B b Cmat).
(** mattens/dense-tensor_dense_mattens.hpp:8-28 (double; float 31-51); transA = transB = false *)
Definition k_mattens_ab (a : F) (A : marg) (B : targ) (b : F) (C : targ) : res kernel :=
  d <- first_dim (h_shape B) ;;
  Bmat <- move_dense2 B (int_of d) (-1) ;;
  Cmat <- move_dense2 C (int_of (g_row A)) (int_of (g_col Bmat)) ;;
  Ok (k_matmul_ab a A Bmat b Cmat).
(** tensmul/tensor_dense-tensor_dense_tensmul.hpp:8-27 (double; float 30-49) *)
Definition k_tensmul_ab (a : F) (A B : targ) (b : F) (C : targ) : res kernel :=
  d <- last_dim (h_shape A) ;;
  Amat <- move_dense2 A (-1) (int_of d) ;;
  e <- first_dim (h_shape B) ;;
  Bmat <- move_dense2 B (int_of e) (-1) ;;
  Cmat <- move_dense2 C (int_of (g_row Amat)) (int_of (g_col Bmat)) ;;
  Ok (k_matmul_ab a Amat Bmat b Cmat).

(** tensvec_blas.cpp:9-17, tensmat_blas.cpp, mattens_blas.cpp, tensmul_blas.cpp: alpha 1, beta 0 *)
Definition k_tensvec (A : targ) (x : arg) (y : targ) := k_tensvec_ab f1 A x f0 y.
Definition k_tensmat (A : targ) (B : marg) (C : targ) := k_tensmat_ab f1 A B f0 C.
Definition k_mattens (A : marg) (B C : targ) := k_mattens_ab f1 A B f0 C.
Definition k_tensmul (A B C : targ) := k_tensmul_ab f1 A B f0 C.

(** ** element-wise operations *)

(** compare_tensor_dense.cpp:81-97 is_same_structure, 247-263 is_same_size *)
Definition tsame (A B : targ) : bool := if list_eq_dec Nat.eq_dec (h_shape A) (h_shape B) then true else false.

(** times/tensor_dense_times.hpp:8-21 *)
Definition k_ttimes (alpha : F) (A C : targ) : kernel :=
  mkKernel (tsame A C) (h_nnz A) (map1 (fun x => fmul x alpha) (h_begin A) (h_begin C)).
(** adds/tensor_dense_adds.hpp:8-21 *)
Definition k_tadds (alpha : F) (A C : targ) : kernel :=
  mkKernel (tsame A C) (h_nnz A) (map1 (fun x => fadd x alpha) (h_begin A) (h_begin C)).
(** tensaddsub/tensor_dense_tensaddsub.hpp:8-21, 23-36 *)
Definition k_tensadd (A B C : targ) : kernel :=
  mkKernel (tsame A B && tsame A C) (h_nnz A) (map2 fadd (h_begin A) (h_begin B) (h_begin C)).
Definition k_tenssub (A B C : targ) : kernel :=
  mkKernel (tsame A B && tsame A C) (h_nnz A) (map2 fsub (h_begin A) (h_begin B) (h_begin C)).
(** scal/tensor_dense_scal.hpp:8-16 *)
Definition k_tscal (alpha : F) (A : targ) : kernel :=
  mkKernel true (h_nnz A) (map1 (fun x => fmul x alpha) (h_begin A) (h_begin A)).
(** copy/tensor_dense_copy.hpp:7-19; copy_tensor_dense.cpp:11-25 operator= *)
Definition k_tcopy (A C : targ) : kernel :=
  mkKernel (tsame A C) (h_nnz A) (map1 (fun x => x) (h_begin A) (h_begin C)).
(** fill/fill_tensor_dense.cpp:10-32 *)
Definition k_tfill (value : F) (A : targ) : kernel := mkKernel true (h_nnz A) (map0 value (h_begin A)).

(** ** broadcast along the last / first index *)

(** times/tensor_dense_times.hpp:24-41, adds/tensor_dense_adds.hpp:24-41 *)
Definition k_trow (op : F -> F -> F) (A : targ) (x : arg) (C : targ) : res kernel :=
  assert_ (tsame A C) ;;;
  d <- last_dim (h_shape A) ;;
  Amat <- move_dense2 A (-1) (int_of d) ;;
  assert_ (g_col Amat =? a_len x) ;;;
  Cmat <- move_dense2 C (int_of (g_row Amat)) (int_of (g_col Amat)) ;;
  Ok (k_row op Amat x Cmat).
(** times/tensor_dense_times.hpp:44-61, adds/tensor_dense_adds.hpp:44-61 *)
Definition k_tcol (op : F -> F -> F) (A : targ) (x : arg) (C : targ) : res kernel :=
  assert_ (tsame A C) ;;;
  d <- first_dim (h_shape A) ;;
  Amat <- move_dense2 A (int_of d) (-1) ;;
  assert_ (g_row Amat =? a_len x) ;;;
  Cmat <- move_dense2 C (int_of (g_row Amat)) (int_of (g_col Amat)) ;;
  Ok (k_col op Amat x Cmat).
(** times/tensor_dense_line_times.hpp:8-26, adds/tensor_dense_line_adds.hpp:8-26 *)
Definition k_trow_line (op : F -> F -> F) (A : targ) (num : nat) (x : arg) (C : targ) : res kernel :=
  assert_ (tsame A C) ;;;
  d <- last_dim (h_shape A) ;;
  Amat <- move_dense2 A (-1) (int_of d) ;;
  assert_ (g_col Amat =? a_len x) ;;;
  assert_ (num <=? g_row Amat) ;;;
  Cmat <- move_dense2 C (int_of (g_row Amat)) (int_of (g_col Amat)) ;;
  Ok (k_row_line op Amat num x Cmat).
(** times/tensor_dense_line_times.hpp:29-47, adds/tensor_dense_line_adds.hpp:29-47 *)
Definition k_tcol_line (op : F -> F -> F) (A : targ) (num : nat) (x : arg) (C : targ) : res kernel :=
  assert_ (tsame A C) ;;;
  d <- first_dim (h_shape A) ;;
  Amat <- move_dense2 A (int_of d) (-1) ;;
  assert_ (g_row Amat =? a_len x) ;;;
  assert_ (num <=? g_col Amat) ;;;
  Cmat <- move_dense2 C (int_of (g_row Amat)) (int_of (g_col Amat)) ;;
  Ok (k_col_line op Amat num x Cmat).

(** ** diagonal operations: diag_op/tensor_dense_diag_op.hpp *)

(** lines 14-22 (and the same in each function): the loop computing (N, shift, Len) *)
Definition tdiag_scan (A : targ) : nat * nat * nat :=
  fold_left (fun st d => let '(N, shift, Len) := st in (N * d, shift + N, Nat.min Len d))
    (h_shape A) (1, 0, h_nnz A).
(** vald[shift*i] op= alpha: lines 8-41 (add), 82-115 (sub), 156-189 (mul), 230-263 (div) *)
Definition k_tdiag_s (op : F -> F -> F) (A : targ) (alpha : F) : kernel :=
  let '(_, shift, Len) := tdiag_scan A in
  mkKernel true Len (fun i =>
    let p := padd (h_begin A) (shift * i) in
    v <-- p ;; p <== op v alpha ;; Ret tt).
(** vald[shift*i] op= vecd[i]: lines 44-79, 118-153, 192-227, 266-301 *)
Definition k_tdiag_v (op : F -> F -> F) (A : targ) (x : arg) : kernel :=
  let '(_, shift, Len) := tdiag_scan A in
  mkKernel (Len =? a_len x) Len (fun i =>
    let p := padd (h_begin A) (shift * i) in
    v <-- p ;; e <-- padd (a_ptr x) i ;; p <== op v e ;; Ret tt).
Definition k_tdiag_add := k_tdiag_s fadd.
Definition k_tdiag_sub := k_tdiag_s fsub.
Definition k_tdiag_mul := k_tdiag_s fmul.
Definition k_tdiag_div := k_tdiag_s fdiv.
Definition k_tdiag_add_v := k_tdiag_v fadd.
Definition k_tdiag_sub_v := k_tdiag_v fsub.
Definition k_tdiag_mul_v := k_tdiag_v fmul.
Definition k_tdiag_div_v := k_tdiag_v fdiv.

End TensorBlasModel.
