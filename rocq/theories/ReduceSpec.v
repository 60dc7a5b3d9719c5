(** * ReduceSpec: vocabulary for the reduction properties. *)
From Verif Require Import Base Scalar Mem VecModel VecSpec ReduceModel.
Set Implicit Arguments.

Section ReduceSpec.
Context {F : Type} {SF : Scalar F}.

(** the call is accepted, cannot go wrong, and returns [v] whatever the distribution of the iterations
    over threads and the order in which partial results are combined *)
Definition returns (k : reduction) (m : mem F) (v : F) : Prop :=
  red_val k m v /\ (forall v', red_val k m v' -> v' = v) /\ ~ red_fault k m.

(** [operator<] is a strict weak order on the values satisfying [P] (false for IEEE numbers exactly
    because of NaN) *)
Definition weak_order (P : F -> Prop) : Prop :=
  (forall a, P a -> fltb a a = false) /\
  (forall a b c, P a -> P b -> P c -> fltb a b = true -> fltb b c = true -> fltb a c = true) /\
  (forall a b c, P a -> P b -> P c -> fltb a c = true -> fltb a b = true \/ fltb b c = true).

(** the value [v] is one of the elements and no element is greater / smaller *)
Definition is_max (m : mem F) (y : arg) (v : F) : Prop :=
  (exists i, i < a_len y /\ el m y i = v) /\ forall i, i < a_len y -> fltb v (el m y i) = false.
Definition is_min (m : mem F) (y : arg) (v : F) : Prop :=
  (exists i, i < a_len y /\ el m y i = v) /\ forall i, i < a_len y -> fltb (el m y i) v = false.
End ReduceSpec.
