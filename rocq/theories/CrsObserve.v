(** * CrsObserve: what a user can see of a CRS object (used in the property statements). *)
From Verif Require Import Base Scalar Spec DenseModel CooModel Observe CrsModel.
Set Implicit Arguments.

Section CrsObserve.
Context {F : Type} {SF : Scalar F}.

(** row_ptr[i], col_ind[k], k-th value *)
Definition rpn (a : crs F) (i : nat) : nat := nth i (m_rp a) 0.
Definition cin (a : crs F) (k : nat) : nat := nth k (m_ci a) 0.
Definition vln (a : crs F) (k : nat) : F := nth (m_first a + k) (m_val a) f0.

(** a valid CRS object: row_ptr has rows+1 elements, starts at 0, is non-decreasing and ends at
    get_nnz(); col_ind has at least get_nnz() elements, all inside the matrix; the values lie
    inside the allocated buffer *)
Definition crs_ok (a : crs F) : Prop :=
  length (m_rp a) = m_row a + 1 /\
  rpn a 0 = 0 /\
  (forall i, i < m_row a -> rpn a i <= rpn a (i + 1)) /\
  rpn a (m_row a) = m_nnz a /\
  m_nnz a <= length (m_ci a) /\
  (forall k, k < m_nnz a -> cin a k < m_col a) /\
  length (m_val a) = m_alloc a /\
  m_first a + m_nnz a <= m_alloc a.

(** not a window into another object's buffer *)
Definition crs_plain (a : crs F) : Prop := m_first a = 0 /\ m_own a = true.

(** the storage of a CRS object that owns its buffer, whatever its structure arrays hold *)
Definition crs_buf (a : crs F) : Prop :=
  length (m_val a) = m_alloc a /\ m_nnz a <= m_alloc a /\ m_first a = 0.

(** the stored (column, value) pairs of row i, in storage order *)
Definition crs_row (a : crs F) (i : nat) : list (nat * F) :=
  map (fun k => (cin a k, vln a k)) (seq (rpn a i) (rpn a (i + 1) - rpn a i)).

(** all stored (row, column, value) triples, row by row *)
Definition crs_entries (a : crs F) : list (nat * nat * F) :=
  flat_map (fun i => map (fun p => (i, fst p, snd p)) (crs_row a i)) (seq 0 (m_row a)).

(** value of element (i,j): the last stored entry at that position, or 0 *)
Definition crs_elem (a : crs F) (i j : nat) : F := last_wins (crs_entries a) i j.

(** no position is stored twice *)
Definition nodup_pos (ts : list (nat * nat * F)) : Prop := NoDup (map fst ts).

(** same dimensions and the same stored positions in the same order *)
Definition same_pattern (a b : crs F) : Prop :=
  m_row a = m_row b /\ m_col a = m_col b /\ map fst (crs_entries a) = map fst (crs_entries b).

(** [a] and [b] differ at most in row_ptr, and reading row i (row_ptr[i]..row_ptr[i+1]) gives the same
    range of entries, or an empty range in both *)
Definition crs_sim (a b : crs F) : Prop :=
  m_row a = m_row b /\ m_col a = m_col b /\ m_ci a = m_ci b /\ m_val a = m_val b /\
  m_first a = m_first b /\ m_nnz a = m_nnz b /\
  length (m_rp a) = m_row a + 1 /\ length (m_rp b) = m_row b + 1 /\
  forall i, i < m_row a ->
    (rpn a i = rpn b i /\ rpn a (i + 1) = rpn b (i + 1)) \/
    (rpn a (i + 1) <= rpn a i /\ rpn b (i + 1) <= rpn b i).

(** a CRS whose rows read like those of a valid CRS (a valid one, or one whose trailing empty rows
    have an unset row_ptr, as CRS(COO) leaves them) *)
Definition crs_readable (a : crs F) : Prop := exists b, crs_sim a b /\ crs_ok b.

(** ** specification helpers *)
Local Notation triple := (nat * nat * F)%type.

(** one row of the product: the stored entries in order, starting from 0 *)
Definition row_dot (l : list (nat * F)) (x : list F) : F :=
  fold_left (fun t p => fadd t (fmul (snd p) (fn x (fst p)))) l f0.

(** the (row, value) pairs of column c, in row order *)
Definition ent_col (ts : list triple) (c : nat) : list (nat * F) :=
  map (fun t => (fst (fst t), snd t)) (filter (fun t => snd (fst t) =? c) ts).

(** entry-wise map of the values, structure unchanged *)
Definition map_val (g : nat -> nat -> F -> F) (ts : list triple) : list triple :=
  map (fun t => (fst t, g (fst (fst t)) (snd (fst t)) (snd t))) ts.

(** entry-wise combination of the values of two matrices with the same stored positions *)
Definition map2_val (h : nat -> nat -> F -> F -> F) (ta tc : list triple) : list triple :=
  map (fun ab => (fst (fst ab), h (fst (fst (fst ab))) (snd (fst (fst ab))) (snd (fst ab)) (snd (snd ab))))
      (combine ta tc).

(** a row's (column, value) pairs grouped by increasing column, stored order kept inside a column *)
Definition by_col (N : nat) (l : list (nat * F)) : list (nat * F) :=
  flat_map (fun c => filter (fun p => fst p =? c) l) (seq 0 N).

(** sum over the stored entries of a row, in order, from [z], of [w v * B[col][j]] *)
Definition row_sum (z : F) (w : F -> F) (l : list (nat * F)) (B : dense F) (j : nat) : F :=
  fold_left (fun t p => fadd t (fmul (w (snd p)) (dense_fn B (fst p) j))) l z.

(** everything outside the M x N window of C is unchanged *)
Definition same_outside (C C' : dense F) : Prop :=
  length (d_val C') = length (d_val C) /\
  forall q, q < d_first C \/ d_first C + d_nnz C <= q -> nth q (d_val C') f0 = nth q (d_val C) f0.

(** stored rows are non-decreasing *)
Definition row_sorted (ts : list triple) : Prop :=
  StronglySorted (fun t t' => fst (fst t) <= fst (fst t')) ts.

End CrsObserve.
