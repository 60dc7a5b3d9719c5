(** * LobSpec: what the eigensolver properties talk about (no solver code here). *)
From Coq Require Import ZArith.
From Verif Require Import Base Scalar Spec SolverModel SolverSpec.
Set Implicit Arguments.

Section LobSpec.
Context {F : Type} {SF : Scalar F}.
Local Open Scope F_scope.

(** row i of a list of rows, as a function *)
Definition rowf (X : list (list F)) (i : nat) : nat -> F := fn (nth i X []).
(** k rows of length n *)
Definition shaped (k n : nat) (X : list (list F)) : Prop := length X = k /\ forall i, (i < k)%nat -> length (nth i X []) = n.

(** A x - lambda x and A x - lambda B x *)
Definition eig_resid (n : nat) (A : nat -> nat -> F) (lambda : F) (x : nat -> F) (k : nat) : F := mv n A x k - lambda * x k.
Definition geig_resid (n : nat) (A B : nat -> nat -> F) (lambda : F) (x : nat -> F) (k : nat) : F := mv n A x k - lambda * mv n B x k.

(** r is the largest of rs *)
Definition largest (r : F) (rs : list F) : Prop := In r rs /\ forall s, In s rs -> fltb r s = false.
(** ascending *)
Definition ascending (l : list F) : Prop := forall i j, (i < j < length l)%nat -> fltb (fn l j) (fn l i) = false.
(** the first m rows are orthonormal vectors of F^n *)
Definition orthonormal (m n : nat) (X : list (list F)) : Prop :=
  forall i j, (i < m)%nat -> (j < m)%nat -> dotp n (rowf X i) (rowf X j) = if (i =? j)%nat then 1 else 0.

(** the only facts about < the statements use (true of the reals, the rationals and of floats that are not NaN) *)
Definition le_lt_trans_law : Prop := forall a b c : F, fltb b a = false -> fltb b c = true -> fltb a c = true.
Definition lt_strict_law : Prop :=
  (forall a : F, fltb a a = false) /\ (forall a b c : F, fltb a b = false -> fltb b c = false -> fltb a c = false) /\
  (forall a b : F, fltb a b = true -> fltb b a = false).

(** ** what LAPACK documents about ?sygvd with itype 1, jobz 'V' (matrices as lists of rows, order k)

    On exit with info = 0: W holds the eigenvalues in ascending order and A the eigenvectors, normalised so that
    Z^T B Z = I.  (Row i of the row-major array is the i-th column of LAPACK's column-major matrix.) *)
Definition quad (k : nat) (S : list (list F)) (u v : nat -> F) : F :=
  sum_n k (fun r => u r * sum_n k (fun s => rowf S r s * v s)).
Definition decomposes (k : nat) (Sa Sb : list (list F)) (lam : list F) (V : list (list F)) : Prop :=
  length lam = k /\ shaped k k V /\ ascending lam /\
  (forall i j, (i < k)%nat -> (j < k)%nat -> quad k Sb (rowf V i) (rowf V j) = if (i =? j)%nat then 1 else 0) /\
  (forall i r, (i < k)%nat -> (r < k)%nat -> mv k (rowf Sa) (rowf V i) r = fn lam i * mv k (rowf Sb) (rowf V i) r).
Definition sym_rows (k : nat) (S : list (list F)) : Prop :=
  shaped k k S /\ forall i j, (i < k)%nat -> (j < k)%nat -> rowf S i j = rowf S j i.
Definition lapack_info0 (sygvd : nat -> list (list F) -> list (list F) -> Z * list F * list (list F)) : Prop :=
  forall call k Sa Sb info lam V, sym_rows k Sa -> sym_rows k Sb -> sygvd call Sa Sb = (info, lam, V) -> info = 0%Z ->
    decomposes k Sa Sb lam V.

(** it overwrites the arrays it is given, so their sizes stay what they were *)
Definition lapack_sizes (sygvd : nat -> list (list F) -> list (list F) -> Z * list F * list (list F)) : Prop :=
  forall call k Sa Sb, shaped k k Sa -> shaped k k Sb ->
    let '(_, lam, V) := sygvd call Sa Sb in length lam = k /\ shaped k k V.

(** info = N + j: the leading minor of order j of B is the first one that is not positive *)
Fixpoint det (k : nat) (S : nat -> nat -> F) : F :=
  match k with
  | 0 => 1
  | S k' => sum_n k (fun j =>
      (if Nat.even j then 1 else - (1)) * S 0%nat j * det k' (fun r s => S (Datatypes.S r) (if (s <? j)%nat then s else Datatypes.S s)))
  end.
Definition lapack_minors (sygvd : nat -> list (list F) -> list (list F) -> Z * list F * list (list F)) : Prop :=
  forall call k Sa Sb j, sym_rows k Sa -> sym_rows k Sb -> (1 <= j <= k)%nat ->
    (forall i, (1 <= i < j)%nat -> fltb 0 (det i (rowf Sb)) = true) -> fltb 0 (det j (rowf Sb)) = false ->
    fst (fst (sygvd call Sa Sb)) = Z.of_nat (k + j).
(** ... and in that case A and W are left as they were on entry (W: the caller's array, here all zeros) *)

(** an ordered field (the reals and the rationals are): field_arith plus a total order that respects + and * *)
Record ordered_field : Prop := {
  of_ring : exact SF;
  of_field : field_arith (F:=F);
  of_tri : forall a b : F, fltb a b = true \/ a = b \/ fltb b a = true;
  of_irr : forall a : F, fltb a a = false;
  of_trans : forall a b c : F, fltb a b = true -> fltb b c = true -> fltb a c = true;
  of_add : forall a b c : F, fltb a b = true -> fltb (a + c) (b + c) = true;
  of_mul : forall a b : F, fltb 0 a = true -> fltb 0 b = true -> fltb 0 (a * b) = true;
  of_01 : fltb 0 1 = true
}.
(** a <= b *)
Definition leq (a b : F) : Prop := fltb b a = false.
(** |a - b| < tol *)
Definition within (tol a b : F) : Prop := fltb (a - b) tol = true /\ fltb (b - a) tol = true.
(** fsqrt a is the square root of a *)
Definition root_of (a : F) : Prop := fsqrt a * fsqrt a = a /\ leq 0 (fsqrt a).

(** the eigenvalues of the n x n matrix M in ascending order, with an orthonormal basis of eigenvectors *)
Definition eigenbasis (n : nat) (M : nat -> nat -> F) (u : nat -> nat -> F) (mu : nat -> F) : Prop :=
  (forall s t, (s < n)%nat -> (t < n)%nat -> dotp n (u s) (u t) = if (s =? t)%nat then 1 else 0) /\
  (forall s k, (s < n)%nat -> (k < n)%nat -> mv n M (u s) k = mu s * u s k) /\
  (forall s t, (s <= t < n)%nat -> leq (mu s) (mu t)).
(** those of M u = mu N u, with a basis of eigenvectors that is N-orthonormal *)
Definition geigenbasis (n : nat) (M N : nat -> nat -> F) (u : nat -> nat -> F) (mu : nat -> F) : Prop :=
  (forall s t, (s < n)%nat -> (t < n)%nat -> dotp n (u s) (mv n N (u t)) = if (s =? t)%nat then 1 else 0) /\
  (forall s k, (s < n)%nat -> (k < n)%nat -> mv n M (u s) k = mu s * mv n N (u s) k) /\
  (forall s t, (s <= t < n)%nat -> leq (mu s) (mu t)).
End LobSpec.
