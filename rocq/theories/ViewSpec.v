(** * ViewSpec: vocabulary for the properties of view_Dense and view_tensor_Dense. *)
From Verif Require Import Base Scalar DenseModel TensorModel TensorSpec ViewModel.
Set Implicit Arguments.

Section ViewSpec.
Context {F : Type} {SF : Scalar F}.

(** where the elements of an object start in its buffer (0 unless the object is itself a window) *)
Fixpoint tg_off (t : target F) : nat :=
  match t with TgVec _ _ => 0 | TgDense d => d_first d | TgTens t => t_first t | TgView w t => n_first w + tg_off t end.
(** element [k] of the object, as its own at(k) counts *)
Definition elem (t : target F) (k : nat) : F := nth (tg_off t + k) (tg_data t) f0.
(** the object is a Dense matrix or a tensor_Dense (they have at and insert) *)
Definition has_at (t : target F) : Prop := match t with TgDense _ | TgTens _ => True | _ => False end.
(** the object is no view *)
Definition is_root (t : target F) : Prop := match t with TgView _ _ => False | _ => True end.
(** representation invariant: the elements lie in the buffer *)
Definition tg_ok (t : target F) : Prop :=
  match t with
  | TgVec v n => n <= length v
  | TgDense d => length (d_val d) = d_alloc d /\ d_first d + d_nnz d <= d_alloc d
  | TgTens t => length (t_val t) = t_alloc t /\ t_first t + t_nnz t <= t_alloc t
  | TgView _ _ => False
  end.

(** [t'] is [t] with element [lo + k] set to [f k] for every [k < n] and no other change of the object or of its
    buffer *)
Definition assigned_range (t t' : target F) (lo n : nat) (f : nat -> F) : Prop :=
  exists b, t' = tg_put t b /\ length b = length (tg_data t) /\
    forall k, nth k b f0 = if (tg_off t + lo <=? k) && (k <? tg_off t + lo + n) then f (k - (tg_off t + lo))
                           else nth k (tg_data t) f0.

(** ** programs that use one view_Dense *)
Inductive vop :=
| OAt (i j : nat) | OInsert (i j : nat) (x : F) | OGet (k : nat) | OSet (k : nat) (x : F)
| OFill (x : F) | OAssign (d : dense F).

(** the program, run on the model: the values that were read, and the target at the end *)
Fixpoint vrun (v : vdense) (t : target F) (l : list vop) : res (list F * target F) :=
  match l with
  | [] => Ok ([], t)
  | o :: l =>
      '(y, t) <- match o with
        | OAt i j => x <- vd_at v t i j ;; Ok ([x], t)
        | OInsert i j x => t <- vd_insert v t i j x ;; Ok ([], t)
        | OGet k => x <- n_get (vd_win v) t k ;; Ok ([x], t)
        | OSet k x => t <- n_set (vd_win v) t k x ;; Ok ([], t)
        | OFill x => t <- n_fill (vd_win v) t x ;; Ok ([], t)
        | OAssign d => t <- vd_assign_dense v t d ;; Ok ([], t)
        end ;;
      '(ys, t) <- vrun v t l ;; Ok (y ++ ys, t)
  end.

(** the indices are inside the view; an assigned matrix has its size *)
Definition vop_ok (row col : nat) (o : vop) : Prop :=
  match o with
  | OAt i j | OInsert i j _ => i < row /\ j < col
  | OGet k | OSet k _ => k < row * col
  | OFill _ => True
  | OAssign d => d_row d = row /\ d_col d = col /\ tg_ok (TgDense d) /\ d_nnz d = row * col
  end.

(** the same program on a matrix [M] *)
Fixpoint vmeaning (col : nat) (M : nat -> nat -> F) (l : list vop) : list F * (nat -> nat -> F) :=
  match l with
  | [] => ([], M)
  | o :: l =>
      let '(y, M') := match o with
        | OAt i j => ([M i j], M)
        | OInsert i j x => ([], fun a b => if (a =? i) && (b =? j) then x else M a b)
        | OGet k => ([M (k / col) (k mod col)], M)
        | OSet k x => ([], fun a b => if (a =? k / col) && (b =? k mod col) then x else M a b)
        | OFill x => ([], fun _ _ => x)
        | OAssign d => ([], fun a b => elem (TgDense d) (a * col + b))
        end in
      let '(ys, M') := vmeaning col M' l in (y ++ ys, M')
  end.
End ViewSpec.
