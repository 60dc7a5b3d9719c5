(** * EnergySpec: vocabulary for SOR on symmetric matrices (real numbers). *)
From Coq Require Import Reals.
From Verif Require Import Base Scalar Spec SolverModel SolverSpec EigModel.
Set Implicit Arguments.
Local Open Scope R_scope.

(** u^T M u *)
Definition quad (n : nat) (M : nat -> nat -> R) (u : nat -> R) : R :=
  @sum_n R Rscalar n (fun i => u i * @mv R Rscalar n M u i).
(** positive semidefinite *)
Definition psd (n : nat) (M : nat -> nat -> R) : Prop := forall u, 0 <= quad n M u.
(** the error of x in the energy norm, squared: (x - xs)^T M (x - xs) *)
Definition energy (n : nat) (M : nat -> nat -> R) (xs : nat -> R) (x : list R) : R :=
  quad n M (fun i => @fn R Rscalar x i - xs i).
