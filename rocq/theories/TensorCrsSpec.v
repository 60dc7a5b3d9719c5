(** * TensorCrsSpec: what a user can see of a tensor_CRS object (used in the property statements). *)
From Verif Require Import Base Scalar Spec DenseModel CooModel Observe CrsModel CrsObserve TensorModel TensorSpec
  TensorCrsModel.
Set Implicit Arguments.

(** a shape s = slices s ++ [n_rows s; n_cols s] *)
Definition slices (s : list nat) : list nat := firstn (length s - 2) s.
Definition n_rows (s : list nat) : nat := nth (length s - 2) s 0.
Definition n_cols (s : list nat) : nat := nth (length s - 1) s 0.

Section TensorCrsSpec.
Context {F : Type} {SF : Scalar F}.

(** the values of slice [d] start behind those of the slices before it *)
Definition tr_off (A : tcrs F) (d : nat) : nat := list_sum (map (@length nat) (firstn d (k_cis A))).

(** slice number [d] read as a CRS matrix: the first rows+1 elements of row_ptrs[d], col_inds[d] and its window of
    the value buffer *)
Definition tr_slice (A : tcrs F) (d : nat) : crs F :=
  mkCrs (n_rows (k_shape A)) (n_cols (k_shape A)) (firstn (n_rows (k_shape A) + 1) (nth d (k_rps A) [])) (nth d (k_cis A) []) (k_val A)
    (k_first A + tr_off A d) (length (nth d (k_cis A) [])) (k_alloc A) true 0%N.

(** a tensor_CRS whose slices read like valid CRS matrices *)
Definition tr_readable (A : tcrs F) : Prop :=
  2 <= length (k_shape A) /\
  length (k_rps A) = prod (slices (k_shape A)) /\ length (k_cis A) = prod (slices (k_shape A)) /\
  tr_off A (length (k_cis A)) = k_nnz A /\
  (forall d, d < prod (slices (k_shape A)) -> crs_readable (tr_slice A d)).

(** the stored (last index, value) pairs with leading indices [p] and second-to-last index [i], in storage order *)
Definition tr_row (A : tcrs F) (p : list nat) (i : nat) : list (nat * F) :=
  crs_row (tr_slice A (row_major (slices (k_shape A)) p)) i.

(** the same for a list of (position, value) entries *)
Definition ent_row (ts : list (list nat * F)) (p : list nat) (i : nat) : list (nat * F) :=
  map (fun e => (last (fst e) 0, snd e))
    (filter (fun e => if list_eq_dec Nat.eq_dec (removelast (fst e)) (p ++ [i]) then true else false) ts).

(** entries in lexicographic order of their positions, as tensor_COO::sort leaves them *)
Definition pos_sorted (ts : list (list nat * F)) : Prop := StronglySorted (fun a b => lex_le (fst a) (fst b)) ts.

(** sum of the values stored at [pos] *)
Definition sum_at (ts : list (list nat * F)) (pos : list nat) : F :=
  fold_left (fun acc e => if list_eq_dec Nat.eq_dec (fst e) pos then fadd acc (snd e) else acc) ts f0.

(** not a window, owns its buffer; structure arrays not yet filled *)
Definition tr_fresh (t : tcrs F) : Prop :=
  length (k_val t) = k_alloc t /\ k_nnz t <= k_alloc t /\ k_first t = 0 /\ k_rps t = [] /\ k_cis t = [].

End TensorCrsSpec.

(** sum over stored (index, value) pairs, in order, from [z], of [w value * b index] *)
Definition row_fold {F} {SF : Scalar F} (z : F) (w : F -> F) (l : list (nat * F)) (b : nat -> F) : F :=
  fold_left (fun t p => fadd t (fmul (w (snd p)) (b (fst p)))) l z.

Section TensorCrsSpec2.
Context {F : Type} {SF : Scalar F}.

(** unchanged outside the elements of C *)
Definition tsame_outside (C C' : tdense F) : Prop :=
  length (t_val C') = length (t_val C) /\
  forall k, k < t_first C \/ t_first C + t_nnz C <= k -> nth k (t_val C') f0 = nth k (t_val C) f0.
(** the non-SIMD path: a * sum + b * old *)
Definition g_scalar (a b old : F) (l : list (nat * F)) (w : nat -> F) : F :=
  fadd (fmul a (row_fold f0 (fun v => v) l w)) (fmul b old).
(** the SIMD paths: b * old, then the products (a * v) * w are added one by one *)
Definition g_avx (a b old : F) (l : list (nat * F)) (w : nat -> F) : F :=
  row_fold (fmul b old) (fun v => fmul a v) l w.
(** the compiled variants of CRS * Dense and the arithmetic each performs for one element *)
Definition variant {SC : Schedule} (mul : matmul_variant (F := F)) (g : F -> F -> F -> list (nat * F) -> (nat -> F) -> F) : Prop :=
  (mul = crs_dense_matmul_scalar /\ g = g_scalar) \/
  (mul = crs_dense_matmul_avx avx_entry_double /\ g = g_avx) \/
  (mul = crs_dense_matmul_avx avx_entry_float /\ g = g_avx).
(** fits a C++ int *)
Definition int_range (n : nat) : Prop := (Z.of_nat n < 2 ^ 31)%Z.
(** identical row_ptrs and col_inds *)
Definition same_arrays (A C : tcrs F) : Prop :=
  k_shape C = k_shape A /\ k_rps C = k_rps A /\ k_cis C = k_cis A /\ k_nnz C = k_nnz A.
End TensorCrsSpec2.
