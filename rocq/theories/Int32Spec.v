(** * Int32Spec: vocabulary for the 32-bit properties (no model code). *)
From Verif Require Import Base Scalar Mem VecModel DenseModel CrsModel Observe CrsObserve.
Set Implicit Arguments.

(** [r] = how many of [n] elements are processed when [n] is narrowed to a 32-bit int: with
    n = 2^32 q + s, 0 <= s < 2^32, it is s when s < 2^31, and 0 otherwise (the int is negative) *)
Definition reached (n r : nat) : Prop :=
  exists q s : Z, (Z.of_nat n = 2 ^ 32 * q + s /\ 0 <= s < 2 ^ 32)%Z /\
    ((s < 2 ^ 31 /\ Z.of_nat r = s)%Z \/ (2 ^ 31 <= s)%Z /\ r = 0).

(** the number fits an int *)
Definition fits31 (n : nat) : Prop := (Z.of_nat n < 2 ^ 31)%Z.

(** the first [r] elements of an argument *)
Definition first_of (x : arg) (r : nat) : arg := mkArg (a_ptr x) r.

Section Int32Spec.
Context {F : Type} {SF : Scalar F}.
(** the largest subscripts the product of [A] and an N-column matrix needs are ints: the last element of
    C, and the last element of the row of B met by each stored entry *)
Definition subscripts_fit (A : crs F) (N : nat) : Prop :=
  (Z.of_nat (m_row A * N) <= 2 ^ 31)%Z /\
  forall i p, i < m_row A -> In p (crs_row A i) -> (Z.of_nat (N * (fst p + 1)) <= 2 ^ 31)%Z.
End Int32Spec.
