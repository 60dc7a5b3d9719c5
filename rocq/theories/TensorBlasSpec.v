(** * TensorBlasSpec: vocabulary for tensor operations in memory (no model code beyond the argument record). *)
From Verif Require Import Base Scalar Mem MemSpec VecModel DenseBlasModel DenseSpec TensorModel TensorSpec TensorBlasModel.
Set Implicit Arguments.

(** product and dimensions fit the C++ type int *)
Definition int_sized (s : list nat) : Prop :=
  (Z.of_nat (prod s) < 2 ^ 31)%Z /\ Forall (fun d => (Z.of_nat d < 2 ^ 31)%Z) s.

(** all coordinates of a position are equal to [i] *)
Definition on_diag (pos : list nat) : bool := match pos with [] => true | i :: q => forallb (Nat.eqb i) q end.
(** the smallest dimension (1 for rank 0) *)
Definition min_dim (s : list nat) : nat := match s with [] => 1 | d :: ds => fold_right Nat.min d ds end.

Section TensorBlasSpec.
Context {F : Type} {SF : Scalar F}.

(** where the element at a position lives *)
Definition tslot (A : targ) (pos : list nat) : ptr := padd (h_begin A) (row_major (h_shape A) pos).
(** the element at a position *)
Definition tmel (m : mem F) (A : targ) (pos : list nat) : F := cell m (tslot A pos).
(** all elements exist *)
Definition tens_ok (m : mem F) (A : targ) : Prop := forall pos, inside (h_shape A) pos -> valid m (tslot A pos).
(** no element of A is an element of C *)
Definition tapart (A C : targ) : Prop :=
  forall p q, inside (h_shape A) p -> inside (h_shape C) q -> tslot A p <> tslot C q.
(** A and C are the same tensor, or do not meet *)
Definition tsame_or_apart (A C : targ) : Prop := (h_begin A = h_begin C /\ h_shape A = h_shape C) \/ tapart A C.
(** a vector / a matrix does not meet C *)
Definition tvapart (x : arg) (C : targ) : Prop :=
  forall k q, k < a_len x -> inside (h_shape C) q -> padd (a_ptr x) k <> tslot C q.
Definition tmapart (M : marg) (C : targ) : Prop :=
  forall i j q, i < g_row M -> j < g_col M -> inside (h_shape C) q -> mslot M i j <> tslot C q.

(** The call [k] passes its checks and, for every distribution of iterations over threads and every
    interleaving, terminates without invalid access with C[pos] = f pos and nothing but C changed. *)
Definition tcomputes (k : kernel) (m : mem F) (C : targ) (f : list nat -> F) : Prop :=
  exists m', kernel_result k m m' /\ kernel_seq k m = Ok m' /\ same_shape m m' /\
    (forall pos, inside (h_shape C) pos -> tmel m' C pos = f pos) /\
    (forall p, (forall pos, inside (h_shape C) pos -> tslot C pos <> p) -> cell m' p = cell m p).

End TensorBlasSpec.
