(** * PcgSpec: what a symmetric definite linear preconditioner is (no solver code here). *)
From Verif Require Import Base Scalar Spec SolverModel SolverSpec.
Set Implicit Arguments.
Section PcgSpec.
Context {F : Type} {SF : Scalar F}.
Local Open Scope F_scope.
(** K maps vectors of n elements to vectors of n elements, linearly *)
Definition linear_map (n : nat) (K : (nat -> F) -> nat -> F) : Prop :=
  (forall u v, (forall i, (i < n)%nat -> u i = v i) -> forall i, (i < n)%nat -> K u i = K v i) /\
  (forall u a v i, (i < n)%nat -> K (fun j => u j + a * v j) i = K u i + a * K v i).
(** u . K v = K u . v *)
Definition self_adjoint (n : nat) (K : (nat -> F) -> nat -> F) : Prop := forall u v, dotp n u (K v) = dotp n (K u) v.
(** u . K u vanishes only for u = 0 *)
Definition nonzero_form (n : nat) (K : (nat -> F) -> nat -> F) : Prop :=
  forall u, dotp n u (K u) = 0 -> forall i, (i < n)%nat -> u i = 0.
Definition sym_definite_map (n : nat) (K : (nat -> F) -> nat -> F) : Prop := linear_map n K /\ self_adjoint n K /\ nonzero_form n K.
(** the preconditioner can be created, and applying it to r computes K r *)
Definition pre_is (A : matif (F:=F)) (n : nat) (pre : precond (F:=F)) (K : (nat -> F) -> nat -> F) : Prop :=
  exists f, pre A = Ok f /\
    forall r z, length r = n -> length z = n ->
      exists z', f r z = Ok z' /\ length z' = n /\ forall i, (i < n)%nat -> fn z' i = K (fn r) i.
(** v . M v > 0 for every v <> 0 *)
Definition positive_definite (n : nat) (M : nat -> nat -> F) : Prop :=
  forall v, (exists i, (i < n)%nat /\ v i <> 0) -> fltb 0 (dotp n v (mv n M v)) = true.
End PcgSpec.
