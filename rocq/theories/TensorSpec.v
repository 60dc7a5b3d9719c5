(** * TensorSpec: vocabulary for the tensor properties (no model code beyond the object fields). *)
From Verif Require Import Base Scalar TensorModel.
Set Implicit Arguments.

(** product of a list of dimensions *)
Fixpoint prod (shape : list nat) : nat := match shape with [] => 1 | d :: s => d * prod s end.

(** [pos] has the rank of [shape] and every coordinate is smaller than its dimension *)
Definition inside (shape pos : list nat) : Prop := Forall2 lt pos shape.

(** row-major (last index fastest) number of a position *)
Fixpoint row_major (shape pos : list nat) : nat :=
  match shape, pos with
  | _ :: s, p :: q => p * prod s + row_major s q
  | _, _ => 0
  end.

(** lexicographic order of positions *)
Fixpoint lex_le (a b : list nat) : Prop :=
  match a, b with
  | [], _ => True
  | _ :: _, [] => False
  | x :: a', y :: b' => x < y \/ (x = y /\ lex_le a' b')
  end.
Definition lex_lt (a b : list nat) : Prop := lex_le a b /\ a <> b.

Section TensorSpec.
Context {F : Type} {SF : Scalar F}.

(** value of the last pair at position [pos], 0 if there is none *)
Definition last_at (ops : list (list nat * F)) (pos : list nat) : F :=
  fold_left (fun acc o => if list_eq_dec Nat.eq_dec (fst o) pos then snd o else acc) ops f0.

(** representation invariant of a tensor_Dense object *)
Definition td_ok (t : tdense F) : Prop :=
  length (t_val t) = t_alloc t /\ t_nnz t = prod (t_shape t) /\ t_first t + t_nnz t <= t_alloc t.
(** a tensor_Dense that is not a window into a bigger buffer *)
Definition td_plain (t : tdense F) : Prop := t_first t = 0 /\ t_own t = true.

(** the stored entries (index[k], data()[k]), k < get_nnz() *)
Definition tc_entries (q : tcoo F) : list (list nat * F) :=
  firstn (q_nnz q) (combine (q_index q) (q_val q)).
(** representation invariant of a tensor_COO object that owns its buffer *)
Definition tc_ok (q : tcoo F) : Prop :=
  length (q_index q) = q_alloc q /\ length (q_val q) = q_alloc q /\ q_nnz q <= q_alloc q /\ q_own q = true.
(** every stored position lies inside the shape *)
Definition tc_inside (q : tcoo F) : Prop := forall p v, In (p, v) (tc_entries q) -> inside (q_shape q) p.

End TensorSpec.

(** ** requested shapes of reshape: negative dimensions are to be inferred *)
(** [sh] is the requested shape with the negative dimensions filled in *)
Definition resolves (req : list Z) (sh : list nat) : Prop :=
  Forall2 (fun z n => (z < 0)%Z \/ z = Z.of_nat n) req sh.
(** how many dimensions are to be inferred *)
Definition negatives (req : list Z) : nat := length (filter (fun z => (z <? 0)%Z) req).
(** product of the given dimensions *)
Definition given (req : list Z) : nat := prod (map Z.to_nat (filter (fun z => (0 <=? z)%Z) req)).
