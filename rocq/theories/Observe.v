(** * Observe: what a user of the library can see of a model object.

    These are the only functions of model objects used in the property statements,
    besides the modelled API functions themselves. *)
From Verif Require Import Base Scalar Spec DenseModel CooModel.
Set Implicit Arguments.

Section Observe.
Context {F : Type} {SF : Scalar F}.

(** the stored entries (row_index[k], col_index[k], data()[k]), k < get_nnz() *)
Definition coo_entries (c : coo F) : list (nat * nat * F) :=
  firstn (c_nnz c) (combine (combine (c_ri c) (c_ci c)) (c_val c)).

(** representation invariant of a COO object that owns its buffer: the three arrays have the
    allocated size, which bounds get_nnz() *)
Definition coo_ok (c : coo F) : Prop :=
  length (c_ri c) = c_alloc c /\ length (c_ci c) = c_alloc c /\ length (c_val c) = c_alloc c /\
  c_nnz c <= c_alloc c /\ c_own c = true.

(** representation invariant of a Dense object *)
Definition dense_ok (d : dense F) : Prop :=
  length (d_val d) = d_alloc d /\ d_nnz d = d_row d * d_col d /\
  d_first d + d_nnz d <= d_alloc d.

(** a Dense object that is not a window into a bigger buffer *)
Definition dense_plain (d : dense F) : Prop := d_first d = 0 /\ d_own d = true.

(** element (i,j) of a Dense object as mathematics (row-major), meaningful in range *)
Definition dense_fn (d : dense F) (i j : nat) : F :=
  nth (d_first d + (d_col d * i + j)) (d_val d) f0.

End Observe.
