(** * LinOpSpec: what "operator a computes ..." means. *)
From Verif Require Import Base Scalar Spec LinOpModel.
Set Implicit Arguments.

Section LinOpSpec.
Context {F : Type} {SF : Scalar F} {SC : CrsModel.Schedule}.

(** blas::matvec (t = false) / blas::rmatvec (t = true) of operator [a] *)
Definition op_apply (t : bool) (n : nat) (w : world F) (a : nat) (x y : list F) : res (list F) :=
  if t then op_rmatvec n w a x y else op_matvec n w a x y.

(** In world [w], blas::matvec (blas::rmatvec) of operator [a] takes vectors of length [p] to vectors of
    length [q], always returns (given a deep enough stack) and computes [g], whatever y held. *)
Definition computes (w : world F) (t : bool) (a p q : nat) (g : list F -> list F) : Prop :=
  exists A, w_op w a = Some A /\ l_in t A = p /\ l_out t A = q /\
    forall x y, length x = p -> length y = q ->
      exists n, forall m, n <= m -> op_apply t m w a x y = Ok (g x).

(** ... and the function is multiplication by the q x p matrix [M] *)
Definition is_matrix (w : world F) (t : bool) (a p q : nat) (M : nat -> nat -> F) : Prop :=
  exists g, computes w t a p q g /\
    forall x i, length x = p -> i < q -> fn (g x) i = mv p M (fn x) i.

(** the operators a stored function calls *)
Definition calls (k : clo F) : list nat :=
  match k with
  | KUser _ | KCoo _ | KCrs _ _ | KDense _ _ => []
  | KAxpy _ _ a b | KProd _ a b => [a; b]
  | KShift _ _ a _ | KScale _ _ a _ => [a]
  end.

(** operator [a] is built, directly or through other operators, on operator [c] *)
Inductive built_on (w : world F) : nat -> nat -> Prop :=
| bo_self a : built_on w a a
| bo_call a A t k a' c :
    w_op w a = Some A -> l_fun t A = Some k -> In a' (calls k) -> built_on w a' c -> built_on w a c.

(** all objects except operator [c] are the same in both worlds *)
Definition same_except (c : nat) (w w' : world F) : Prop :=
  (forall a, a <> c -> w_op w' a = w_op w a) /\ w_crs w' = w_crs w /\ w_coo w' = w_coo w /\
  w_dense w' = w_dense w /\ w_sc w' = w_sc w.

(** j-th unit vector of length n *)
Definition unit_vec (n j : nat) : list F := map (fun i => if i =? j then f1 else f0) (seq 0 n).

End LinOpSpec.
