(** * ConvSpec: vocabulary for the convergence of the stationary solvers (real numbers). *)
From Coq Require Import Reals.
From Verif Require Import Base Scalar Spec SolverModel SolverSpec EigModel.
Set Implicit Arguments.
Local Open Scope R_scope.

(** sum_{j<n, j<>i} |M i j| *)
Definition offdiag (n : nat) (M : nat -> nat -> R) (i : nat) : R :=
  @sum_n R Rscalar n (fun j => if (j =? i)%nat then 0 else Rabs (M i j)).
(** strictly diagonally dominant, with factor q < 1 *)
Definition dominant (n : nat) (M : nat -> nat -> R) (q : R) : Prop :=
  0 <= q < 1 /\ forall i, (i < n)%nat -> M i i <> 0 /\ offdiag n M i <= q * Rabs (M i i).
(** every component of u is at most E in absolute value *)
Definition within (n : nat) (E : R) (u : nat -> R) : Prop := forall i, (i < n)%nat -> Rabs (u i) <= E.
(** xs is the solution of M xs = b *)
Definition solution (n : nat) (M : nat -> nat -> R) (b : list R) (xs : nat -> R) : Prop :=
  forall i, (i < n)%nat -> @mv R Rscalar n M xs i = @fn R Rscalar b i.
(** One outcome for all limits that are large enough: SUCCESS, after at most K iterations *)
Definition converges (solve : cfg (F:=R) -> res (outcome (F:=R))) (c : cfg (F:=R)) : Prop :=
  exists o K, o_code o = SUCCESS /\ (o_iter o <= K)%nat /\ forall m, (K <= m)%nat -> solve (with_maxiter c m) = Ok o.
