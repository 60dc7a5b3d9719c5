(** * MemSpec: vocabulary for statements about memory. *)
From Verif Require Import Base Scalar Mem.
Set Implicit Arguments.

Section MemSpec.
Context {F : Type} {SF : Scalar F}.

(** [m'] is [m] with the [n] elements starting at [y] replaced by [f 0], ..., [f (n-1)] and
    nothing else changed *)
Definition written (m m' : mem F) (y : ptr) (n : nat) (f : nat -> F) : Prop :=
  same_shape m m' /\
  (forall i, i < n -> cell m' (padd y i) = f i) /\
  (forall p, (forall i, i < n -> padd y i <> p) -> cell m' p = cell m p).

(** The [n]-element windows at [x] and [y] are the same or do not meet (no partial overlap). *)
Definition alias_ok (x y : ptr) (n : nat) : Prop :=
  x = y \/ forall i j, i < n -> j < n -> padd x i <> padd y j.

(** the [n] elements starting at [p], as a list *)
Definition elems (m : mem F) (p : ptr) (n : nat) : list F := map (fun i => cell m (padd p i)) (seq 0 n).

End MemSpec.
