(** * PropertiesCoo: the theorems for C01-C07, C10 (COO part), C40 (COO part).

    Only statements; proofs are in CooProof, CooSortProof, CooMiscProof. *)
From Verif Require Import Base Scalar Spec DenseModel CooModel Observe CooProof CooSortProof CooMiscProof.

(** ** C01 *)
Theorem C01_coo_insert_at {F} {SF : Scalar F} M N (ops : list (nat * nat * F)) :
  in_range M N ops ->
  exists c, coo_inserts (coo_new M N) ops = Ok c /\ coo_ok c /\ c_row c = M /\ c_col c = N /\
    c_nnz c = length ops /\ coo_entries c = ops /\
    forall i j, i < M -> j < N -> coo_at c i j = Ok (last_wins ops i j).
Proof. exact (@coo_insert_at_full F SF M N ops). Qed.
Print Assumptions C01_coo_insert_at.

(** [last_wins] is what its name says: the value of the last triple at (i,j), else 0. *)
Theorem C01_last_wins_spec {F} {SF : Scalar F} (pre post : list (nat * nat * F)) i j v :
  (forall w, ~ In (i, j, w) post) ->
  last_wins (pre ++ (i, j, v) :: post) i j = v /\ last_wins post i j = f0.
Proof. exact (@last_wins_meaning F SF pre post i j v). Qed.
Print Assumptions C01_last_wins_spec.

Example C01_example :
  in_range 2 3 [(0,1,5%Z); (1,2,7%Z); (0,1,9%Z)] /\
  exists c, coo_inserts (coo_new 2 3) [(0,1,5%Z); (1,2,7%Z); (0,1,9%Z)] = Ok c /\
    coo_at c 0 1 = Ok 9%Z /\ coo_at c 1 2 = Ok 7%Z /\ coo_at c 1 1 = Ok 0%Z.
Proof.
  split; [repeat constructor|]. eexists; split; [vm_compute; reflexivity|]. vm_compute. auto.
Qed.

(** ** C02: false.  A position with i = M (or j = N) is accepted and stored, and a later
    column extraction then writes outside the result vector. *)
Theorem C02_coo_insert_bounds_refuted {F} {SF : Scalar F} (v : F) :
  exists M N i j c c', ~ (i < M /\ j < N) /\ coo_insert (coo_new M N) i j v = Ok c /\
    coo_entries c = [(i, j, v)] /\ c = c' /\ coo_getcol c' 0 (repeat f0 M) = UB.
Proof. exact (coo_insert_bounds_counterexample v). Qed.
Print Assumptions C02_coo_insert_bounds_refuted.

(** What does hold: a position beyond M or N (strictly) aborts, for every matrix. *)
Theorem C02_coo_insert_bounds_partial {F} {SF : Scalar F} (c : coo F) i j v :
  c_own c = true -> (c_row c < i \/ c_col c < j) ->
  coo_insert c i j v = Abort /\ coo_at c i j = Abort.
Proof. exact (@coo_insert_far F SF c i j v). Qed.
Print Assumptions C02_coo_insert_bounds_partial.

(** ** C03 *)
Theorem C03_coo_sort {F} {SF : Scalar F} (c : coo F) :
  coo_ok c ->
  exists c', coo_sort c false = Ok c' /\ coo_ok c' /\
    c_row c' = c_row c /\ c_col c' = c_col c /\ c_nnz c' = c_nnz c /\
    Permutation (coo_entries c) (coo_entries c') /\
    StronglySorted pos_le (map fst (coo_entries c')).
Proof. exact (@coo_sort_nomerge F SF c). Qed.
Print Assumptions C03_coo_sort.

Example C03_example :
  exists c c', coo_inserts (coo_new 3 3) [(2,1,5%Z); (0,2,7%Z); (2,0,9%Z); (0,2,1%Z)] = Ok c /\
    coo_ok c /\ coo_sort c false = Ok c' /\
    map fst (coo_entries c') = [(0,2); (0,2); (2,0); (2,1)].
Proof.
  do 2 eexists. split; [vm_compute; reflexivity|]. split; [repeat split; cbn; lia|].
  split; vm_compute; reflexivity.
Qed.

(** ** C04: false in general (the quicksort is not stable, so for a repeated position the
    surviving value need not be the last one inserted; and an EMPTY matrix gets nnz = 1). *)
Theorem C04_coo_sort_merge_refuted {F} {SF : Scalar F} (u v w : F) :
  exists c c', coo_inserts (coo_new 1 2) [(0,1,u); (0,1,v); (0,0,w)] = Ok c /\
    coo_sort c true = Ok c' /\ coo_at c 0 1 = Ok v /\ coo_at c' 0 1 = Ok u.
Proof. exact (coo_sort_merge_counterexample u v w). Qed.
Print Assumptions C04_coo_sort_merge_refuted.

Theorem C04_coo_sort_merge_empty_refuted {F} {SF : Scalar F} M N :
  exists c', coo_sort (coo_new M N) true = Ok c' /\ c_nnz c' = 1 /\ coo_at (F:=F) c' 0 0 = UB.
Proof. exact (coo_sort_merge_empty_counterexample M N). Qed.
Print Assumptions C04_coo_sort_merge_empty_refuted.

(** What does hold for every non-empty matrix: positions strictly increasing, the same set of
    positions, every surviving entry is one of the old entries; and when repeated positions carry
    equal values (in particular without repetition) every element is unchanged.
    Missing wrt C04: the last-wins value for repeated positions with different values; nnz = 0. *)
Theorem C04_coo_sort_merge_partial {F} {SF : Scalar F} (c : coo F) :
  coo_ok c -> 0 < c_nnz c ->
  exists c', coo_sort c true = Ok c' /\ coo_ok c' /\
    c_row c' = c_row c /\ c_col c' = c_col c /\ 0 < c_nnz c' <= c_nnz c /\
    StronglySorted pos_lt (map fst (coo_entries c')) /\
    incl (coo_entries c') (coo_entries c) /\
    (forall p v, In (p, v) (coo_entries c) -> exists v', In (p, v') (coo_entries c')) /\
    ((forall p v v', In (p, v) (coo_entries c) -> In (p, v') (coo_entries c) -> v = v') ->
     forall i j, i <= c_row c -> j <= c_col c -> coo_at c' i j = coo_at c i j).
Proof. exact (@coo_sort_merge_at F SF c). Qed.
Print Assumptions C04_coo_sort_merge_partial.

Example C04_example :
  exists c c', coo_inserts (coo_new 3 3) [(2,1,5%Z); (0,2,7%Z); (2,0,9%Z); (0,2,7%Z)] = Ok c /\
    coo_ok c /\ 0 < c_nnz c /\ coo_sort c true = Ok c' /\
    coo_entries c' = [(0,2,7%Z); (2,0,9%Z); (2,1,5%Z)].
Proof.
  do 2 eexists. split; [vm_compute; reflexivity|]. split; [repeat split; cbn; lia|].
  split; [cbn; lia|]. split; vm_compute; reflexivity.
Qed.

(** ** C05 *)
Theorem C05_coo_transpose {F} {SF : Scalar F} (c : coo F) :
  coo_ok c ->
  coo_ok (coo_transpose c) /\
  c_row (coo_transpose c) = c_col c /\ c_col (coo_transpose c) = c_row c /\
  (forall i j, i <= c_row c -> j <= c_col c -> coo_at (coo_transpose c) j i = coo_at c i j) /\
  coo_transpose (coo_transpose c) = c.
Proof. exact (@coo_transpose_full F SF c). Qed.
Print Assumptions C05_coo_transpose.

Theorem C05_coo_transpose_from {F} {SF : Scalar F} (c B : coo F) :
  coo_ok c -> coo_ok B ->
  exists c', coo_transpose_from c B = Ok c' /\ coo_ok c' /\
    c_row c' = c_col B /\ c_col c' = c_row B /\ c_nnz c' = c_nnz B /\
    forall i j, i <= c_row B -> j <= c_col B -> coo_at c' j i = coo_at B i j.
Proof. exact (@coo_transpose_from_at F SF c B). Qed.
Print Assumptions C05_coo_transpose_from.

(** With the SAME object as source and target, A.transpose(A), it is false: *)
Theorem C05_coo_transpose_alias_refuted :
  exists c c', coo_inserts (coo_new 2 2) [(0,1,5%Z)] = Ok c /\ coo_transpose_self c = Ok c' /\
    coo_at c 0 1 = Ok 5%Z /\ coo_at c' 1 0 = Ok 0%Z /\ coo_at c' 1 1 = Ok 5%Z.
Proof. exact coo_transpose_alias_counterexample. Qed.
Print Assumptions C05_coo_transpose_alias_refuted.

Example C05_example :
  exists c B c', coo_inserts (coo_new 1 1) [(0,0,3%Z)] = Ok c /\
    coo_inserts (coo_new 2 3) [(0,1,5%Z); (1,2,7%Z)] = Ok B /\ coo_ok c /\ coo_ok B /\
    coo_transpose_from c B = Ok c' /\ coo_at c' 2 1 = Ok 7%Z.
Proof.
  do 3 eexists. split; [vm_compute; reflexivity|]. split; [vm_compute; reflexivity|].
  split; [repeat split; cbn; lia|]. split; [repeat split; cbn; lia|].
  split; vm_compute; reflexivity.
Qed.

(** ** C06 *)
Theorem C06_coo_row_col_diag {F} {SF : Scalar F} (c : coo F) (vec : list F) k :
  coo_ok c -> in_range (c_row c) (c_col c) (coo_entries c) ->
  (k < c_row c -> length vec = c_col c -> exists w, coo_getrow c k vec = Ok w /\
     length w = c_col c /\ forall j, j < c_col c -> coo_at c k j = Ok (nth j w f0)) /\
  (k < c_col c -> length vec = c_row c -> exists w, coo_getcol c k vec = Ok w /\
     length w = c_row c /\ forall i, i < c_row c -> coo_at c i k = Ok (nth i w f0)) /\
  (length vec = Nat.min (c_row c) (c_col c) -> exists w, coo_diag c vec = Ok w /\
     length w = length vec /\ forall i, i < length vec -> coo_at c i i = Ok (nth i w f0)) /\
  (length vec <> c_col c -> coo_getrow c k vec = Abort) /\
  (length vec <> c_row c -> coo_getcol c k vec = Abort) /\
  (length vec <> Nat.min (c_row c) (c_col c) -> coo_diag c vec = Abort).
Proof. exact (@coo_getvec_full F SF c vec k). Qed.
Print Assumptions C06_coo_row_col_diag.

Example C06_example :
  exists c, coo_inserts (coo_new 2 3) [(0,1,5%Z); (1,2,7%Z); (1,1,4%Z)] = Ok c /\ coo_ok c /\
    in_range (c_row c) (c_col c) (coo_entries c) /\
    coo_getrow c 1 [9;9;9]%Z = Ok [0;4;7]%Z /\ coo_getcol c 1 [9;9]%Z = Ok [5;4]%Z /\
    coo_diag c [9;9]%Z = Ok [0;4]%Z.
Proof.
  eexists. split; [vm_compute; reflexivity|]. split; [repeat split; cbn; lia|].
  split; [repeat constructor|]. repeat split; vm_compute; reflexivity.
Qed.

(** ** C07 *)
Theorem C07_dense_of_coo {F} {SF : Scalar F} (d : dense F) (c : coo F) :
  dense_ok d -> d_first d = 0 -> coo_ok c -> in_range (c_row c) (c_col c) (coo_entries c) ->
  exists d', dense_convert_coo d c = Ok d' /\ dense_ok d' /\ dense_plain d' /\
    d_row d' = c_row c /\ d_col d' = c_col c /\
    forall i j, i < c_row c -> j < c_col c -> dense_at d' i j = coo_at c i j.
Proof. exact (@dense_of_coo_at F SF d c). Qed.
Print Assumptions C07_dense_of_coo.

Theorem C07_coo_of_dense {F} {SF : Scalar F} (c : coo F) (d : dense F) :
  coo_ok c -> dense_ok d ->
  exists c', coo_convert_dense c d = Ok c' /\ coo_ok c' /\
    c_row c' = d_row d /\ c_col c' = d_col d /\
    in_range (c_row c') (c_col c') (coo_entries c') /\
    StronglySorted pos_lt (map fst (coo_entries c')) /\
    (forall i j v, In (i, j, v) (coo_entries c') <->
       i < d_row d /\ j < d_col d /\ dense_at d i j = Ok v /\ feqb v f0 = false) /\
    (forall i j, i < d_row d -> j < d_col d -> exists x, dense_at d i j = Ok x /\
       coo_at c' i j = Ok (if feqb x f0 then f0 else x)).
Proof. exact (@coo_of_dense_full F SF c d). Qed.
Print Assumptions C07_coo_of_dense.

(** Dense -> COO -> Dense gives back every element (an element equal to 0, e.g. -0.0, comes
    back as +0.0). *)
Theorem C07_dense_coo_dense {F} {SF : Scalar F} (d d0 : dense F) (c : coo F) :
  dense_ok d -> dense_ok d0 -> d_first d0 = 0 -> coo_ok c ->
  exists c' d', coo_convert_dense c d = Ok c' /\ dense_convert_coo d0 c' = Ok d' /\
    d_row d' = d_row d /\ d_col d' = d_col d /\
    forall i j, i < d_row d -> j < d_col d -> exists x, dense_at d i j = Ok x /\
      dense_at d' i j = Ok (if feqb x f0 then f0 else x).
Proof. exact (@dense_coo_dense F SF d d0 c). Qed.
Print Assumptions C07_dense_coo_dense.

Example C07_example :
  exists d c', dense_of_array 2 2 [1;0;0;4]%Z = Ok d /\ dense_ok d /\
    coo_convert_dense (coo_new 0 0) d = Ok c' /\ coo_entries c' = [(0,0,1%Z); (1,1,4%Z)].
Proof.
  do 2 eexists. split; [vm_compute; reflexivity|]. split; [repeat split; cbn; lia|].
  split; vm_compute; reflexivity.
Qed.

(** ** C10 (COO part): false: only the left operand's nnz is used. *)
Theorem C10_coo_equal_refuted :
  exists a b, coo_inserts (coo_new 2 2) [(0,0,1%Z)] = Ok a /\
    coo_inserts (coo_new 2 2) [(0,0,1%Z); (1,1,5%Z)] = Ok b /\
    coo_equal a b = Ok true /\ coo_at a 1 1 <> coo_at b 1 1.
Proof. exact coo_equal_counterexample. Qed.
Print Assumptions C10_coo_equal_refuted.

Theorem C10_coo_equal_oob_refuted :
  exists a b, coo_inserts (coo_new 2 2) [(0,0,1%Z)] = Ok a /\ coo_ok a /\ coo_ok b /\
    b = coo_new 2 2 /\ coo_equal a b = UB.
Proof. exact coo_equal_oob_counterexample. Qed.
Print Assumptions C10_coo_equal_oob_refuted.

(** What does hold: for operands with the same number of entries == decides equality of
    dimensions and entry sequences.  Missing: operands with different nnz. *)
Theorem C10_coo_equal_partial {F} {SF : Scalar F} (a b : coo F) :
  coo_ok a -> coo_ok b -> c_nnz a = c_nnz b ->
  exists r, coo_equal a b = Ok r /\
    (r = true <-> c_row a = c_row b /\ c_col a = c_col b /\
       Forall2 (fun x y => fst x = fst y /\ feqb (snd y) (snd x) = true)
               (coo_entries a) (coo_entries b)).
Proof. exact (@coo_equal_ok F SF a b). Qed.
Print Assumptions C10_coo_equal_partial.

(** ** C40 (COO part) *)
Theorem C40_coo_copy {F} {SF : Scalar F} (c : coo F) :
  coo_ok c ->
  exists c', coo_copy c = Ok c' /\ coo_ok c' /\ c_row c' = c_row c /\ c_col c' = c_col c /\
    coo_entries c' = coo_entries c.
Proof. exact (@coo_copy_ok F SF c). Qed.
Print Assumptions C40_coo_copy.
