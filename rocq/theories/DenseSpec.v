(** * DenseSpec: vocabulary for the Dense matrix properties (no model code). *)
From Verif Require Import Base Scalar Spec Mem MemSpec VecModel DenseBlasModel.
Set Implicit Arguments.

Section DenseSpec.
Context {F : Type} {SF : Scalar F}.

(** where element (i,j) of a row-major matrix lives *)
Definition mslot (A : marg) (i j : nat) : ptr := padd (g_begin A) (g_col A * i + j).
(** element (i,j) *)
Definition mel (m : mem F) (A : marg) (i j : nat) : F := cell m (mslot A i j).
(** all elements exist *)
Definition mat_ok (m : mem F) (A : marg) : Prop :=
  forall i j, i < g_row A -> j < g_col A -> valid m (mslot A i j).
(** same dimensions *)
Definition same_dims (A B : marg) : Prop := g_row A = g_row B /\ g_col A = g_col B.
(** no element of A is an element of C *)
Definition mapart (A C : marg) : Prop :=
  forall i j k l, i < g_row A -> j < g_col A -> k < g_row C -> l < g_col C -> mslot A i j <> mslot C k l.
(** A and C are the same window, or do not meet *)
Definition msame_or_apart (A C : marg) : Prop := (g_begin A = g_begin C /\ same_dims A C) \/ mapart A C.
(** no element of the vector x is an element of C *)
Definition vapart (x : arg) (C : marg) : Prop :=
  forall k i j, k < a_len x -> i < g_row C -> j < g_col C -> padd (a_ptr x) k <> mslot C i j.

(** The call [k] passes its checks and, for every distribution of iterations over threads and every
    interleaving, terminates without invalid access with C[i][j] = f i j and nothing but C changed. *)
Definition mcomputes (k : kernel) (m : mem F) (C : marg) (f : nat -> nat -> F) : Prop :=
  exists m', kernel_result k m m' /\ kernel_seq k m = Ok m' /\ same_shape m m' /\
    (forall i j, i < g_row C -> j < g_col C -> mel m' C i j = f i j) /\
    (forall p, (forall i j, i < g_row C -> j < g_col C -> mslot C i j <> p) -> cell m' p = cell m p).

End DenseSpec.
