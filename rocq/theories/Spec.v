(** * Spec: the mathematical objects the properties talk about.

    Independent of the model: finite sums, matrices as functions, the "last one wins"
    reading of a list of (row, col, value) triples. *)
From Verif Require Import Base Scalar.
Set Implicit Arguments.

Section Spec.
Context {F : Type} {SF : Scalar F}.
Local Open Scope F_scope.

(** f(0) + f(1) + ... + f(n-1) *)
Fixpoint sum_n (n : nat) (f : nat -> F) : F :=
  match n with O => 0 | S k => sum_n k f + f k end.

(** a (row, col, value) triple *)
Local Notation triple := (nat * nat * F)%type.

(** The matrix denoted by a list of triples when, for a repeated position, the LAST
    triple wins: what a user of [insert] expects. *)
Fixpoint last_wins (ts : list triple) (i j : nat) : F :=
  match ts with
  | [] => 0
  | (r, c, v) :: ts' =>
      if existsb (fun t => (fst (fst t) =? i) && (snd (fst t) =? j)) ts'
      then last_wins ts' i j
      else if (r =? i) && (c =? j) then v else 0
  end.

(** The matrix denoted by a list of triples when repeated positions are summed. *)
Fixpoint summed (ts : list triple) (i j : nat) : F :=
  match ts with
  | [] => 0
  | (r, c, v) :: ts' => if (r =? i) && (c =? j) then v + summed ts' i j else summed ts' i j
  end.

(** matrix-vector product (A x)(i), A with [n] columns *)
Definition mv (n : nat) (A : nat -> nat -> F) (x : nat -> F) (i : nat) : F :=
  sum_n n (fun j => A i j * x j).

(** matrix product, inner dimension [n] *)
Definition mm (n : nat) (A B : nat -> nat -> F) (i j : nat) : F :=
  sum_n n (fun k => A i k * B k j).

Definition dotp (n : nat) (x y : nat -> F) : F := sum_n n (fun i => x i * y i).

(** elements of a list as a function, total by 0 *)
Definition fn (l : list F) (i : nat) : F := nth i l 0.

(** lexicographic order on positions *)
Definition pos_lt (p q : nat * nat) : Prop := fst p < fst q \/ (fst p = fst q /\ snd p < snd q).
Definition pos_le (p q : nat * nat) : Prop := fst p < fst q \/ (fst p = fst q /\ snd p <= snd q).

Definition pos (t : triple) : nat * nat := fst t.

(** all positions inside an M x N matrix *)
Definition in_range (M N : nat) (ts : list triple) : Prop :=
  Forall (fun t => fst (fst t) < M /\ snd (fst t) < N) ts.

End Spec.
