(** * PropertiesCrs: the theorems for C08-C20 and the CRS parts of C10, C40.

    Only statements and concrete witnesses; proofs are in the Crs*Proof files.
    [SC : Schedule] is an arbitrary distribution of loop iterations over OpenMP threads: it matters
    only for the structure hash. *)
From Verif Require Import Base Scalar Spec SumFacts DenseModel CooModel Observe CooProof CooMiscProof CrsModel
  CrsObserve CrsProof CrsSimProof CrsBlasProof CrsBlas2Proof CrsConvProof CrsTransProof CrsMatmulProof
  CrsMiscProof.

(** the sequential schedule, for concrete examples *)
Local Existing Instance one_thread.

(** ** C08 *)

(** Converting a row-sorted COO into a newly constructed CRS object (its row_ptr is still empty; this
    is also the constructor CRS(COO)): row i of the result holds exactly the (column, value) pairs of
    row i of the COO in order; and converting back gives the same triples. *)
Theorem C08_coo_crs_coo {F} {SF : Scalar F} {SC : Schedule} (a : crs F) (c c0 : coo F) :
  crs_buf a -> m_rp a = [] -> coo_ok c -> coo_ok c0 ->
  in_range (c_row c) (c_col c) (coo_entries c) -> row_sorted (coo_entries c) ->
  exists a' c', crs_convert_coo a c = Ok a' /\ crs_readable a' /\ crs_plain a' /\
    m_row a' = c_row c /\ m_col a' = c_col c /\ m_nnz a' = c_nnz c /\
    crs_entries a' = coo_entries c /\
    (forall i, i < c_row c -> crs_row a' i =
       map (fun t => (snd (fst t), snd t)) (filter (fun t => fst (fst t) =? i) (coo_entries c))) /\
    coo_convert_crs c0 a' = Ok c' /\ coo_ok c' /\ c_row c' = c_row c /\ c_col c' = c_col c /\
    coo_entries c' = coo_entries c.
Proof.
  intros Ha Hr Hc Hc0 HR HS.
  destruct (crs_convert_coo_fresh Ha Hr Hc HR HS) as (a' & A & E & Hp & R1 & R2 & R3 & Hsim & W & HE).
  pose proof (crs_sim_entries Hsim) as HE'. rewrite HE in HE'.
  destruct (@coo_convert_crs_ok F SF c0 A) as (c' & E' & Wc' & S1 & S2 & S3); auto.
  { destruct Hsim as (_ & _ & _ & _ & G & _). rewrite <- G. apply Hp. }
  exists a', c'. split; auto. split; [exists A; auto|]. do 5 (split; auto).
  split. { intros i Hi. apply rows_of_entries; auto. lia. }
  rewrite (crs_sim_coo _ Hsim). split; auto. split; auto.
  destruct Hsim as (G1 & G2 & _). rewrite S1, S2, S3. repeat split; auto; lia.
Qed.
Print Assumptions C08_coo_crs_coo.

(** CRS -> COO alone, for every valid CRS and every previous content of the COO object *)
Theorem C08_crs_to_coo {F} {SF : Scalar F} (c : coo F) (a : crs F) :
  coo_ok c -> crs_ok a -> m_first a = 0 ->
  exists c', coo_convert_crs c a = Ok c' /\ coo_ok c' /\ c_row c' = m_row a /\ c_col c' = m_col a /\
    coo_entries c' = crs_entries a.
Proof. exact (@coo_convert_crs_ok F SF c a). Qed.
Print Assumptions C08_crs_to_coo.

(** Converting into a CRS object that was used before: false.  Object first holding row 1 =
    {(0,1),(1,2)}, then converted from the COO with the single entry (0,0)=5: the trailing row keeps
    its old row_ptr, so matvec reads entries that do not exist. *)
Theorem C08_coo_crs_reuse_refuted :
  exists c1 c2 a1 a2,
    coo_inserts (coo_new 2 2) [(1,0,1%Z); (1,1,2%Z)] = Ok c1 /\
    coo_inserts (coo_new 2 2) [(0,0,5%Z)] = Ok c2 /\
    crs_convert_coo crs_empty c1 = Ok a1 /\ crs_convert_coo a1 c2 = Ok a2 /\
    m_rp a2 = [0;1;2] /\ m_nnz a2 = 1 /\ crs_matvec a2 [1;1]%Z [0;0]%Z <> Ok [5;0]%Z.
Proof.
  do 4 eexists. split; [vm_compute; reflexivity|]. split; [vm_compute; reflexivity|].
  split; [vm_compute; reflexivity|]. split; [vm_compute; reflexivity|].
  repeat split; try (vm_compute; reflexivity). vm_compute. discriminate.
Qed.
Print Assumptions C08_coo_crs_reuse_refuted.

(** ** C09: false for trailing empty rows even in a new object (row_ptr does not end at nnz and
    decreases) *)
Theorem C09_crs_valid_refuted :
  exists c a, coo_inserts (coo_new 3 2) [(0,0,5%Z); (0,1,6%Z)] = Ok c /\
    crs_convert_coo crs_empty c = Ok a /\ m_rp a = [0;2;0;0] /\ m_nnz a = 2 /\ ~ crs_ok a.
Proof.
  do 2 eexists. split; [vm_compute; reflexivity|]. split; [vm_compute; reflexivity|].
  split; [vm_compute; reflexivity|]. split; [vm_compute; reflexivity|].
  intros (_ & _ & _ & H & _). vm_compute in H. discriminate.
Qed.
Print Assumptions C09_crs_valid_refuted.

(** What does hold, for every row-sorted COO whose first row is non-empty (or a new object) and whose
    last row is non-empty (or no entry and a new object): the result is a valid CRS with exactly the
    COO's entries, whatever the object held before.
    Missing: empty last rows; re-used objects with an empty first row (see the refutations). *)
Theorem C09_crs_valid_partial {F} {SF : Scalar F} {SC : Schedule} (a : crs F) (c : coo F) :
  crs_buf a -> coo_ok c -> in_range (c_row c) (c_col c) (coo_entries c) -> row_sorted (coo_entries c) ->
  (m_rp a = [] \/ exists t, In t (coo_entries c) /\ fst (fst t) = 0) ->
  ((c_nnz c = 0 /\ m_rp a = []) \/ exists t, In t (coo_entries c) /\ fst (fst t) + 1 = c_row c) ->
  exists a', crs_convert_coo a c = Ok a' /\ crs_ok a' /\ crs_plain a' /\
    m_row a' = c_row c /\ m_col a' = c_col c /\ m_nnz a' = c_nnz c /\ crs_entries a' = coo_entries c.
Proof. exact (@crs_convert_coo_ok F SF SC a c). Qed.
Print Assumptions C09_crs_valid_partial.

Example C08_C09_example :
  exists c a, coo_inserts (coo_new 3 3) [(0,2,5%Z); (2,0,7%Z); (2,1,9%Z)] = Ok c /\ coo_ok c /\
    in_range (c_row c) (c_col c) (coo_entries c) /\ row_sorted (coo_entries c) /\
    crs_buf (crs_empty (F:=Z)) /\ crs_convert_coo crs_empty c = Ok a /\
    m_rp a = [0;1;1;3] /\ crs_row a 1 = [] /\ crs_row a 2 = [(0,7%Z); (1,9%Z)].
Proof.
  do 2 eexists. split; [vm_compute; reflexivity|]. split; [repeat split; cbn; lia|].
  split; [repeat constructor|]. split; [unfold row_sorted; vm_compute; repeat constructor|]. split; [repeat split; auto|].
  split; [vm_compute; reflexivity|]. repeat split; vm_compute; reflexivity.
Qed.

(** ** C10 (CRS part): false.  (1) Comparing a matrix with itself reads past the end of row_ptr
    whenever nnz > rows + 1; (2) two different matrices are equal because only nnz elements of row_ptr
    are compared. *)
Theorem C10_crs_equal_oob_refuted {F} {SF : Scalar F} (a : crs F) :
  crs_ok a -> m_first a = 0 -> m_row a + 1 < m_nnz a ->
  (forall k, k < m_nnz a -> feqb (vln a k) (vln a k) = true) ->
  crs_equal a a = UB.
Proof. exact (@crs_equal_self_ub F SF a). Qed.
Print Assumptions C10_crs_equal_oob_refuted.

Theorem C10_crs_equal_refuted :
  exists a b, crs_of_arrays 2 2 1 [0;1;1] [0] [5%Z] = Ok a /\ crs_of_arrays 2 2 1 [0;0;1] [0] [5%Z] = Ok b /\
    crs_ok a /\ crs_ok b /\ crs_equal a b = Ok true /\ crs_elem a 0 0 = 5%Z /\ crs_elem b 0 0 = 0%Z.
Proof.
  do 2 eexists. split; [vm_compute; reflexivity|]. split; [vm_compute; reflexivity|].
  split; [|split; [|repeat split; vm_compute; reflexivity]].
  all: unfold crs_ok, rpn, cin; cbn; repeat split; auto; intros i Hi; destruct i as [|[|i]]; cbn; lia.
Qed.
Print Assumptions C10_crs_equal_refuted.

(** What does hold: with equal nnz <= rows+1 it decides equality of dimensions, values, columns and the
    first nnz elements of row_ptr (no out-of-range access). *)
Theorem C10_crs_equal_partial {F} {SF : Scalar F} (a b : crs F) :
  crs_ok a -> crs_ok b -> m_first a = 0 -> m_first b = 0 -> m_nnz a = m_nnz b -> m_nnz a <= m_row a + 1 ->
  exists r, crs_equal a b = Ok r /\
    (r = true <-> m_row a = m_row b /\ m_col a = m_col b /\
      (forall k, k < m_nnz a -> feqb (vln b k) (vln a k) = true /\ cin b k = cin a k /\ rpn b k = rpn a k)).
Proof. exact (@crs_equal_ok F SF a b). Qed.
Print Assumptions C10_crs_equal_partial.

(** ** C11 *)

(** Bit-exact for any arithmetic: element i of the result is the fold, in storage order from 0, of
    t + value*x[col] over row i; nothing else matters (in particular not the old y). *)
Theorem C11_crs_matvec {F} {SF : Scalar F} (A : crs F) (x y : list F) :
  crs_readable A -> length x = m_col A -> length y = m_row A ->
  crs_matvec A x y = Ok (map (fun i => row_dot (crs_row A i) x) (seq 0 (m_row A))).
Proof.
  intros (A' & Hs & W) Hx Hy. unfold crs_matvec. rewrite (crs_sim_matvec _ _ _ _ _ Hs).
  pose proof Hs as (G1 & G2 & _). rewrite crs_matvec_ok by (auto; lia). rewrite <- G1. f_equal.
  apply map_ext_in. intros i Hi. apply in_seq in Hi. rewrite (crs_sim_row Hs); auto; lia.
Qed.
Print Assumptions C11_crs_matvec.

(** In exact arithmetic that is the matrix-vector product of the represented matrix. *)
Theorem C11_crs_matvec_exact {F} {SF : Scalar F} (A : crs F) (x y : list F) :
  exact SF -> crs_readable A -> length x = m_col A -> length y = m_row A ->
  exists y', crs_matvec A x y = Ok y' /\ length y' = m_row A /\
    forall i, i < m_row A -> fn y' i = mv (m_col A) (summed (crs_entries A)) (fn x) i.
Proof.
  intros Hex (A' & Hs & W) Hx Hy. rewrite C11_crs_matvec; auto; [|exists A'; auto]. eexists; split; [reflexivity|].
  rewrite map_length, seq_length. split; auto. intros i Hi. unfold fn. rewrite nth_map_seq by auto.
  cbn [Nat.add]. rewrite (crs_sim_row Hs), (crs_sim_entries Hs) by auto.
  destruct Hs as (G1 & G2 & _). rewrite G2. apply row_dot_mv; auto. lia.
Qed.
Print Assumptions C11_crs_matvec_exact.

Theorem C11_crs_matvec_sizes {F} {SF : Scalar F} (A : crs F) (x y : list F) :
  length x <> m_col A \/ length y <> m_row A -> crs_matvec A x y = Abort.
Proof. exact (@crs_matvec_badsize F SF A x y). Qed.
Print Assumptions C11_crs_matvec_sizes.

Example C11_example :
  exists A, crs_of_arrays 2 3 3 [0;2;3] [0;2;1] [1;2;3]%Z = Ok A /\ crs_readable A /\
    crs_matvec A [10;20;30]%Z [7;7]%Z = Ok [70;60]%Z.
Proof.
  eexists. split; [vm_compute; reflexivity|]. split; [|vm_compute; reflexivity].
  apply crs_ok_readable. unfold crs_ok, rpn, cin; cbn.
  repeat split; auto; intros i Hi; destruct i as [|[|[|i]]]; cbn; lia.
Qed.

(** ** C12 *)
Theorem C12_crs_matvec_T {F} {SF : Scalar F} (A : crs F) (x y : list F) :
  crs_readable A -> length x = m_row A -> length y = m_col A ->
  crs_matvec_T A x y = Ok (map (fun c => row_dot (ent_col (crs_entries A) c) x) (seq 0 (m_col A))).
Proof.
  intros (A' & Hs & W) Hx Hy. unfold crs_matvec_T. rewrite (crs_sim_matvec _ _ _ _ _ Hs).
  pose proof Hs as (G1 & G2 & _). fold (crs_matvec_T A' x y).
  rewrite crs_matvec_T_ok by (auto; lia). now rewrite <- G2, (crs_sim_entries Hs).
Qed.
Print Assumptions C12_crs_matvec_T.

Theorem C12_crs_matvec_T_exact {F} {SF : Scalar F} (A : crs F) (x y : list F) :
  exact SF -> crs_readable A -> length x = m_row A -> length y = m_col A ->
  exists y', crs_matvec_T A x y = Ok y' /\ length y' = m_col A /\
    forall j, j < m_col A -> fn y' j = mv (m_row A) (fun j i => summed (crs_entries A) i j) (fn x) j.
Proof.
  intros Hex (A' & Hs & W) Hx Hy. rewrite C12_crs_matvec_T; auto; [|exists A'; auto]. eexists; split; [reflexivity|].
  rewrite map_length, seq_length. split; auto. intros i Hi. unfold fn at 1. rewrite nth_map_seq by auto.
  cbn [Nat.add]. rewrite (crs_sim_entries Hs).
  destruct Hs as (G1 & G2 & _). rewrite G1. apply col_dot_mv; auto.
Qed.
Print Assumptions C12_crs_matvec_T_exact.

(** <A x, u> = <x, A^T u>, on the results of the two library calls *)
Theorem C12_crs_adjoint {F} {SF : Scalar F} (A : crs F) (x u y z : list F) :
  exact SF -> crs_readable A -> length x = m_col A -> length u = m_row A ->
  length y = m_row A -> length z = m_col A ->
  exists y' z', crs_matvec A x y = Ok y' /\ crs_matvec_T A u z = Ok z' /\
    dotp (m_row A) (fn y') (fn u) = dotp (m_col A) (fn x) (fn z').
Proof.
  intros Hex W Hx Hu Hy Hz.
  destruct (@C11_crs_matvec_exact F SF A x y) as (y' & Ey & _ & Hy'); auto.
  destruct (@C12_crs_matvec_T_exact F SF A u z) as (z' & Ez & _ & Hz'); auto.
  exists y', z'. split; auto. split; auto. unfold dotp.
  rewrite (@sum_ext F SF _ _ (fun i => fmul (mv (m_col A) (summed (crs_entries A)) (fn x) i) (fn u i)))
    by (intros i Hi; rewrite Hy'; auto).
  rewrite (@sum_ext F SF (m_col A) _ (fun j => fmul (fn x j) (mv (m_row A) (fun j i => summed (crs_entries A) i j) (fn u) j)))
    by (intros i Hi; rewrite Hz'; auto).
  apply (adjoint Hex).
Qed.
Print Assumptions C12_crs_adjoint.

(** bit for bit the same as transposing first *)
Theorem C12_crs_matvec_T_is_transpose {F} {SF : Scalar F} {SC : Schedule} (A A' : crs F) (x y y' : list F) :
  crs_ok A -> crs_plain A -> crs_transpose A = Ok A' ->
  length x = m_row A -> length y = m_col A -> length y' = m_col A ->
  crs_matvec_T A x y = crs_matvec A' x y'.
Proof. exact (@crs_matvec_T_transpose F SF SC A A' x y y'). Qed.
Print Assumptions C12_crs_matvec_T_is_transpose.

Theorem C12_crs_matvec_T_sizes {F} {SF : Scalar F} (A : crs F) (x y : list F) :
  length x <> m_row A \/ length y <> m_col A -> crs_matvec_T A x y = Abort.
Proof. exact (@crs_matvec_T_badsize F SF A x y). Qed.
Print Assumptions C12_crs_matvec_T_sizes.

Example C12_example :
  exists A A', crs_of_arrays 2 3 3 [0;2;3] [0;2;1] [1;2;3]%Z = Ok A /\ crs_ok A /\ crs_plain A /\
    crs_matvec_T A [10;20]%Z [7;7;7]%Z = Ok [10;60;20]%Z /\
    crs_transpose A = Ok A' /\ crs_matvec A' [10;20]%Z [7;7;7]%Z = Ok [10;60;20]%Z.
Proof.
  do 2 eexists. split; [vm_compute; reflexivity|]. split; [|repeat split; vm_compute; reflexivity].
  unfold crs_ok, rpn, cin; cbn. repeat split; auto; intros i Hi; destruct i as [|[|[|i]]]; cbn; lia.
Qed.

(** ** C13: false: a and b are ignored by the (non-MKL, non-CUDA) code path *)
Theorem C13_crs_matvec_ab_refuted :
  exists A, crs_of_arrays 1 1 1 [0;1] [0] [1%Z] = Ok A /\
    crs_matvec_ab 2%Z A [1%Z] 1%Z [1%Z] = Ok [1%Z] /\ (2 * (1 * 1) + 1 * 1 <> 1)%Z.
Proof. eexists. split; [vm_compute; reflexivity|]. split; [vm_compute; reflexivity|lia]. Qed.
Print Assumptions C13_crs_matvec_ab_refuted.

(** for every matrix: the result is A x whatever a, b and y are *)
Theorem C13_crs_matvec_ab_ignored {F} {SF : Scalar F} (a b : F) (A : crs F) (x y : list F) :
  crs_readable A -> length x = m_col A -> length y = m_row A ->
  crs_matvec_ab a A x b y = crs_matvec A x y.
Proof.
  intros (A' & Hs & W) Hx Hy. pose proof Hs as (G1 & G2 & _).
  unfold crs_matvec_ab, crs_matvec. rewrite !(crs_sim_matvec _ _ _ _ _ Hs), !crs_matvec_ok; auto; lia.
Qed.
Print Assumptions C13_crs_matvec_ab_ignored.

(** hence correct only for a = 1, b = 0 *)
Theorem C13_crs_matvec_ab_partial {F} {SF : Scalar F} (A : crs F) (x y : list F) :
  exact SF -> crs_readable A -> length x = m_col A -> length y = m_row A ->
  exists y', crs_matvec_ab f1 A x f0 y = Ok y' /\ length y' = m_row A /\
    forall i, i < m_row A -> fn y' i =
      fadd (fmul f1 (mv (m_col A) (summed (crs_entries A)) (fn x) i)) (fmul f0 (fn y i)).
Proof.
  intros Hex W Hx Hy. destruct (C11_crs_matvec_exact A x y Hex W Hx Hy) as (y' & E & HL & H).
  exists y'. split; [rewrite C13_crs_matvec_ab_ignored; auto|]. split; auto. intros i Hi. rewrite H by auto.
  symmetry. now apply ex_one_zero.
Qed.
Print Assumptions C13_crs_matvec_ab_partial.

(** ** C14 *)
Theorem C14_crs_transpose {F} {SF : Scalar F} {SC : Schedule} (A : crs F) :
  crs_ok A -> crs_plain A ->
  exists A', crs_transpose A = Ok A' /\ crs_ok A' /\ crs_plain A' /\
    m_row A' = m_col A /\ m_col A' = m_row A /\ m_nnz A' = m_nnz A /\
    forall c, c < m_col A -> crs_row A' c = ent_col (crs_entries A) c.
Proof. exact (@crs_transpose_ok F SF SC A). Qed.
Print Assumptions C14_crs_transpose.

(** B.transpose(A), any previous content of B, distinct objects; A only has to be readable *)
Theorem C14_crs_transpose_from {F} {SF : Scalar F} {SC : Schedule} (B A : crs F) :
  crs_buf B -> crs_readable A -> m_first A = 0 ->
  exists B', crs_transpose_from B A = Ok B' /\ crs_ok B' /\ crs_plain B' /\
    m_row B' = m_col A /\ m_col B' = m_row A /\ m_nnz B' = m_nnz A /\
    forall c, c < m_col A -> crs_row B' c = ent_col (crs_entries A) c.
Proof.
  intros HB (A' & Hs & W) Hf. rewrite (crs_sim_transpose_from _ Hs), (crs_sim_entries Hs).
  pose proof Hs as (G1 & G2 & _ & _ & G5 & G6 & _).
  destruct (@crs_transpose_from_ok F SF SC B A' HB W) as (B' & E & H); [lia|].
  exists B'. split; auto. now rewrite G1, G2, G6.
Qed.
Print Assumptions C14_crs_transpose_from.

(** transposing twice: the rows come back sorted by column (stable) *)
Theorem C14_crs_transpose_twice {F} {SF : Scalar F} {SC : Schedule} (A A' A'' : crs F) :
  crs_ok A -> crs_plain A -> crs_transpose A = Ok A' -> crs_transpose A' = Ok A'' ->
  crs_ok A'' /\ m_row A'' = m_row A /\ m_col A'' = m_col A /\
  forall i, i < m_row A ->
    Permutation (crs_row A'' i) (crs_row A i) /\
    StronglySorted (fun p q => fst p <= fst q) (crs_row A'' i) /\
    (forall c, filter (fun p => fst p =? c) (crs_row A'' i) = filter (fun p => fst p =? c) (crs_row A i)) /\
    (StronglySorted (fun p q => fst p <= fst q) (crs_row A i) -> crs_row A'' i = crs_row A i).
Proof.
  intros W Hp E1 E2. destruct (crs_transpose_twice W Hp E1 E2) as (W2 & _ & R1 & R2 & H).
  split; auto. split; auto. split; auto. intros i Hi. rewrite H by auto.
  assert (HF : Forall (fun p => fst p < m_col A) (crs_row A i)).
  { apply Forall_forall. intros [q v] Hq. unfold crs_row in Hq. apply in_map_iff in Hq.
    destruct Hq as (k & Hk & Hin). apply in_seq in Hin. injection Hk as <- <-. cbn [fst].
    apply cin_lt; auto. assert (rpn A (i + 1) <= m_nnz A) by (apply rp_le_nnz; auto; lia). lia. }
  split; [apply by_col_perm; auto|]. split; [apply by_col_sorted|].
  split; [|intros HS; apply by_col_id; auto].
  intros c. unfold by_col. rewrite filter_flat_map.
  destruct (Nat.lt_ge_cases c (m_col A)) as [Hc|Hc].
  - transitivity (flat_map (fun a => if a =? c then filter (fun p => fst p =? c) (crs_row A i) else []) (seq 0 (m_col A))).
    + apply flat_map_ext_in. intros a _. destruct (Nat.eqb_spec a c) as [->|Hne].
      * apply filter_twice.
      * apply filter_disjoint. intros [q v] _. cbn [fst]. rewrite Nat.eqb_eq, Nat.eqb_neq. intros ->. lia.
    + generalize (filter (fun p => fst p =? c) (crs_row A i)). intros l.
      assert (G : forall n s, flat_map (fun a => if a =? c then l else []) (seq s n) =
                    if (s <=? c) && (c <? s + n) then l else []).
      { induction n as [|n IH]; intros s.
        - cbn [seq flat_map]. destruct (Nat.leb_spec s c), (Nat.ltb_spec c (s + 0)); cbn [andb]; auto; lia.
        - cbn [seq flat_map]. rewrite IH. 
          destruct (Nat.eqb_spec s c), (Nat.leb_spec (S s) c), (Nat.ltb_spec c (S s + n)),
            (Nat.leb_spec s c), (Nat.ltb_spec c (s + S n)); cbn [andb]; try lia; auto using app_nil_r. }
      rewrite G. cbn [Nat.leb andb Nat.add]. now rewrite (proj2 (Nat.ltb_lt _ _)) by lia.
  - transitivity (@nil (nat * F)).
    + rewrite flat_map_concat_map. apply concat_nil_Forall. apply Forall_forall. intros l Hl.
      apply in_map_iff in Hl. destruct Hl as (a & <- & Ha). apply in_seq in Ha.
      apply filter_disjoint. intros [q v] _. cbn [fst]. rewrite Nat.eqb_eq, Nat.eqb_neq. intros ->. lia.
    + symmetry. rewrite Forall_forall in HF. induction (crs_row A i) as [|[q v] l IH]; auto. cbn.
      pose proof (HF (q, v) (or_introl eq_refl)) as G. cbn [fst] in G. rewrite (proj2 (Nat.eqb_neq _ _)) by lia.
      apply IH. intros p Hp'. apply HF. now right.
Qed.
Print Assumptions C14_crs_transpose_twice.

(** ** C15: false for rectangular matrices *)
Theorem C15_crs_row_col_refuted :
  exists A B, crs_of_arrays 1 2 1 [0;1] [1] [5%Z] = Ok A /\ crs_ok A /\
    (* 1x2: a row has 2 elements, but row() rejects a 2-vector and overruns a 1-vector *)
    crs_getrow A 0 [0;0]%Z = Abort /\ crs_getrow A 0 [0]%Z = UB /\
    (* a column has 1 element, but col() rejects a 1-vector and reads row_ptr[2] with a 2-vector *)
    crs_getcol A 0 [0]%Z = Abort /\ crs_getcol A 0 [0;0]%Z = UB /\
    (* 2x1: row 1 has 1 element; col misses rows beyond the number of columns *)
    crs_of_arrays 2 1 2 [0;1;2] [0;0] [5;6]%Z = Ok B /\ crs_ok B /\
    crs_getrow B 0 [0]%Z = Abort /\ crs_getcol B 0 [0;0]%Z = Abort /\ crs_getcol B 0 [0]%Z = Ok [5]%Z.
Proof.
  do 2 eexists. split; [vm_compute; reflexivity|].
  split; [unfold crs_ok, rpn, cin; cbn; repeat split; auto; intros i Hi; destruct i as [|[|i]]; cbn; lia|].
  do 4 (split; [vm_compute; reflexivity|]). split; [vm_compute; reflexivity|].
  split; [unfold crs_ok, rpn, cin; cbn; repeat split; auto; intros i Hi; destruct i as [|[|i]]; cbn; lia|].
  repeat split; vm_compute; reflexivity.
Qed.
Print Assumptions C15_crs_row_col_refuted.

(** What does hold: diag for every shape; row and col for square matrices.
    Missing: row/col of rectangular matrices (refuted above). *)
Theorem C15_crs_row_col_diag_partial {F} {SF : Scalar F} (A : crs F) (vec : list F) k :
  crs_ok A -> m_first A = 0 ->
  (length vec = Nat.min (m_row A) (m_col A) ->
     crs_diag A vec = Ok (map (fun i => crs_elem A i i) (seq 0 (Nat.min (m_row A) (m_col A))))) /\
  (m_row A = m_col A -> length vec = m_col A -> k < m_row A ->
     crs_getrow A k vec = Ok (map (fun j => crs_elem A k j) (seq 0 (m_col A)))) /\
  (m_row A = m_col A -> length vec = m_row A ->
     crs_getcol A k vec = Ok (map (fun i => crs_elem A i k) (seq 0 (m_row A)))).
Proof.
  intros W Hf. split; [|split]; intros.
  - apply crs_diag_ok; auto.
  - apply crs_getrow_ok; auto; lia.
  - apply crs_getcol_ok; auto; lia.
Qed.
Print Assumptions C15_crs_row_col_diag_partial.

Example C15_example :
  exists A, crs_of_arrays 2 2 3 [0;2;3] [0;1;1] [1;2;3]%Z = Ok A /\ crs_ok A /\ m_first A = 0 /\
    crs_getrow A 0 [9;9]%Z = Ok [1;2]%Z /\ crs_getcol A 1 [9;9]%Z = Ok [2;3]%Z /\ crs_diag A [9;9]%Z = Ok [1;3]%Z.
Proof.
  eexists. split; [vm_compute; reflexivity|].
  split; [unfold crs_ok, rpn, cin; cbn; repeat split; auto; intros i Hi; destruct i as [|[|[|i]]]; cbn; lia|].
  repeat split; vm_compute; reflexivity.
Qed.

(** ** C16: false.  (1) The hash never looks at row_ptr/col_ind values: any two matrices of the same
    shape and nnz are declared the same structure, under every schedule. *)
Theorem C16_same_structure_refuted {F} {SF : Scalar F} {SC : Schedule} M N NNZ rp ci (v : list F) rp' ci' v' A B :
  crs_of_arrays M N NNZ rp ci v = Ok A -> crs_of_arrays M N NNZ rp' ci' v' = Ok B ->
  crs_same_structure A B = true.
Proof. exact (@crs_same_structure_blind F SF SC M N NNZ rp ci v rp' ci' v' A B). Qed.
Print Assumptions C16_same_structure_refuted.

(** concretely: a diagonal and an anti-diagonal matrix *)
Theorem C16_same_structure_diag_refuted {F} {SF : Scalar F} {SC : Schedule} (u v : F) :
  exists A B, crs_of_arrays 2 2 2 [0;1;2] [0;1] [u;u] = Ok A /\ crs_of_arrays 2 2 2 [0;1;2] [1;0] [v;v] = Ok B /\
    crs_ok A /\ crs_ok B /\ ~ same_pattern A B /\ crs_same_structure A B = true.
Proof.
  do 2 eexists. split; [cbv -[vhash N.of_nat wrap64]; reflexivity|]. split; [cbv -[vhash N.of_nat wrap64]; reflexivity|].
  split; [unfold crs_ok, rpn, cin; cbn; repeat split; auto; intros i Hi; destruct i as [|[|[|i]]]; cbn; lia|].
  split; [unfold crs_ok, rpn, cin; cbn; repeat split; auto; intros i Hi; destruct i as [|[|[|i]]]; cbn; lia|].
  split.
  - intros (_ & _ & H). cbv in H. discriminate.
  - unfold crs_same_structure. msimpl. rewrite N.eqb_refl. reflexivity.
Qed.
Print Assumptions C16_same_structure_diag_refuted.

(** (2) the hash depends on how the iterations are distributed over threads *)
Theorem C16_hash_schedule_refuted :
  sched_valid one_thread /\ sched_valid two_threads /\
  exists A B, @crs_of_arrays Z Zscalar one_thread 1 1 1 [0;1] [0] [1%Z] = Ok A /\
    @crs_of_arrays Z Zscalar two_threads 1 1 1 [0;1] [0] [1%Z] = Ok B /\ m_hash A <> m_hash B /\
    crs_same_structure A B = false.
Proof. exact (conj one_thread_valid (conj two_threads_valid hash_schedule)). Qed.
Print Assumptions C16_hash_schedule_refuted.

(** What does hold: a positive answer implies equal dimensions; and under one fixed schedule matrices
    with the same structure arrays always get a positive answer (no false negatives). *)
Theorem C16_same_structure_partial {F} {SF : Scalar F} {SC : Schedule} :
  (forall A B : crs F, crs_same_structure A B = true -> m_row A = m_row B /\ m_col A = m_col B) /\
  (forall M N NNZ rp ci (v w : list F) A B,
     crs_of_arrays M N NNZ rp ci v = Ok A -> crs_of_arrays M N NNZ rp ci w = Ok B -> crs_same_structure A B = true).
Proof.
  split.
  - intros A B H. apply crs_same_structure_dims in H. tauto.
  - intros. eapply crs_same_structure_blind; eauto.
Qed.
Print Assumptions C16_same_structure_partial.

(** ** C17: false: the guard accepts a diagonal A, an anti-diagonal B; C(0,0) becomes A(0,0)+B(0,1) *)
Theorem C17_crs_matadd_refuted {SC : Schedule} :
  exists A B C', crs_of_arrays 2 2 2 [0;1;2] [0;1] [1;2]%Z = Ok A /\ crs_of_arrays 2 2 2 [0;1;2] [1;0] [3;4]%Z = Ok B /\
    crs_ok A /\ crs_ok B /\ crs_matadd A B A = Ok C' /\
    crs_elem A 0 0 = 1%Z /\ crs_elem B 0 0 = 0%Z /\ crs_elem C' 0 0 = 4%Z.
Proof.
  assert (P : forall h : N, crs_ok (mkCrs 2 2 [0;1;2] [0;1] [1;2]%Z 0 2 2 true h) /\
               crs_ok (mkCrs 2 2 [0;1;2] [1;0] [3;4]%Z 0 2 2 true h)).
  { intros h. split; unfold crs_ok, rpn, cin; cbn; repeat split; auto; intros i Hi; destruct i as [|[|[|i]]]; cbn; lia. }
  set (h := vhash 2 (vhash 3 (N.of_nat 2))).
  exists (mkCrs 2 2 [0;1;2] [0;1] [1;2]%Z 0 2 2 true h), (mkCrs 2 2 [0;1;2] [1;0] [3;4]%Z 0 2 2 true h),
    (mkCrs 2 2 [0;1;2] [0;1] [4;6]%Z 0 2 2 true h).
  split; [reflexivity|]. split; [reflexivity|]. split; [apply P|]. split; [apply P|].
  split; [|repeat split; vm_compute; reflexivity].
  unfold crs_matadd, crs_matop, crs_same_structure, crs_same_size. msimpl. rewrite N.eqb_refl. cbn. reflexivity.
Qed.
Print Assumptions C17_crs_matadd_refuted.

(** What does hold: if A, B, C really have the same pattern (and the guard accepts), C becomes the
    entry-wise sum/difference, and in exact arithmetic the represented matrices add up. *)
Theorem C17_crs_matadd_partial {F} {SF : Scalar F} (op : F -> F -> F) (A B C : crs F) :
  (op = fadd \/ op = fsub) ->
  crs_ok A -> crs_ok B -> crs_ok C -> same_pattern A B -> same_pattern A C ->
  crs_same_structure A B = true -> crs_same_structure A C = true ->
  exists C', crs_matop op A B C = Ok C' /\ crs_ok C' /\ m_row C' = m_row A /\ m_col C' = m_col A /\
    crs_entries C' = map (fun ab => (fst (fst ab), op (snd (fst ab)) (snd (snd ab))))
                         (combine (crs_entries A) (crs_entries B)) /\
    (exact SF -> forall i j, summed (crs_entries C') i j = op (summed (crs_entries A) i j) (summed (crs_entries B) i j)).
Proof.
  intros Hop WA WB WC PB PC SB SC'.
  destruct (@crs_matop_ok F SF op A B C) as (C' & E & W & R1 & R2 & HE); auto.
  exists C'. do 5 (split; auto). intros Hex i j. rewrite HE.
  apply summed_map2; [now apply ex_op_00|intros; now apply ex_op_swap|apply PB].
Qed.
Print Assumptions C17_crs_matadd_partial.

Example C17_example :
  exists A B C C', crs_of_arrays 2 2 2 [0;1;2] [0;1] [1;2]%Z = Ok A /\ crs_of_arrays 2 2 2 [0;1;2] [0;1] [3;4]%Z = Ok B /\
    crs_of_arrays 2 2 2 [0;1;2] [0;1] [0;0]%Z = Ok C /\
    crs_ok A /\ crs_ok B /\ crs_ok C /\ same_pattern A B /\ same_pattern A C /\
    crs_same_structure A B = true /\ crs_same_structure A C = true /\
    crs_matsub A B C = Ok C' /\ crs_entries C' = [(0,0,(-2)%Z); (1,1,(-2)%Z)].
Proof.
  do 4 eexists. do 3 (split; [vm_compute; reflexivity|]).
  do 3 (split; [unfold crs_ok, rpn, cin; cbn; repeat split; auto; intros i Hi; destruct i as [|[|[|i]]]; cbn; lia|]).
  do 2 (split; [repeat split; vm_compute; reflexivity|]).
  repeat split; vm_compute; reflexivity.
Qed.

(** ** C18 *)

(** scalar path, bit-exact for any arithmetic *)
Theorem C18_crs_dense_scalar {F} {SF : Scalar F} (a : F) (A : crs F) (B : dense F) (b : F) (C : dense F) :
  crs_readable A -> dense_ok B -> dense_ok C ->
  m_col A = d_row B -> m_row A = d_row C -> d_col B = d_col C ->
  exists C', crs_dense_matmul_scalar a A B b C = Ok C' /\ dense_ok C' /\
    d_row C' = d_row C /\ d_col C' = d_col C /\ same_outside C C' /\
    forall i j, i < m_row A -> j < d_col B ->
      dense_fn C' i j = fadd (fmul a (row_sum f0 (fun v => v) (crs_row A i) B j)) (fmul b (dense_fn C i j)).
Proof.
  intros (A' & Hs & W) WB WC H1 H2 H3. rewrite (crs_sim_dense_scalar _ _ _ _ Hs).
  pose proof Hs as (G1 & G2 & _).
  destruct (@crs_dense_scalar_ok F SF a A' B b C) as (C' & E & WC' & R1 & R2 & R3 & H); auto; try lia.
  exists C'. do 5 (split; auto). intros i j Hi Hj. rewrite (crs_sim_row Hs) by auto. apply H; lia.
Qed.
Print Assumptions C18_crs_dense_scalar.

(** AVX paths (double: 4-wide + remainder; float: 32-wide, 8-wide, remainder), bit-exact for any arithmetic *)
Theorem C18_crs_dense_avx {F} {SF : Scalar F} entry (a : F) (A : crs F) (B : dense F) (b : F) (C : dense F) :
  entry = avx_entry_double \/ entry = avx_entry_float ->
  crs_readable A -> dense_ok B -> dense_ok C ->
  m_col A = d_row B -> m_row A = d_row C -> d_col B = d_col C ->
  exists C', crs_dense_matmul_avx entry a A B b C = Ok C' /\ dense_ok C' /\
    d_row C' = d_row C /\ d_col C' = d_col C /\ same_outside C C' /\
    forall i j, i < m_row A -> j < d_col B ->
      dense_fn C' i j = row_sum (fmul b (dense_fn C i j)) (fun v => fmul a v) (crs_row A i) B j.
Proof.
  intros He (A' & Hs & W) WB WC H1 H2 H3. rewrite (crs_sim_dense_avx _ _ _ _ _ Hs).
  pose proof Hs as (G1 & G2 & _).
  destruct (@crs_dense_avx_ok F SF entry a A' B b C) as (C' & E & WC' & R1 & R2 & R3 & H); auto; try lia.
  { destruct He as [-> | ->]; [apply avx_entry_double_ok|apply avx_entry_float_ok]. }
  exists C'. do 5 (split; auto). intros i j Hi Hj. rewrite (crs_sim_row Hs) by auto. apply H; lia.
Qed.
Print Assumptions C18_crs_dense_avx.

(** in exact arithmetic all paths give a*A*B + b*C, for every shape *)
Theorem C18_crs_dense_exact {F} {SF : Scalar F} (a : F) (A : crs F) (B : dense F) (b : F) (C : dense F) :
  exact SF -> crs_readable A -> dense_ok B -> dense_ok C ->
  m_col A = d_row B -> m_row A = d_row C -> d_col B = d_col C ->
  exists C1 C2 C3, crs_dense_matmul_scalar a A B b C = Ok C1 /\
    crs_dense_matmul_avx avx_entry_double a A B b C = Ok C2 /\
    crs_dense_matmul_avx avx_entry_float a A B b C = Ok C3 /\
    forall i j, i < m_row A -> j < d_col B ->
      let r := fadd (fmul a (mm (m_col A) (summed (crs_entries A)) (dense_fn B) i j)) (fmul b (dense_fn C i j)) in
      dense_fn C1 i j = r /\ dense_fn C2 i j = r /\ dense_fn C3 i j = r.
Proof.
  intros Hex R WB WC H1 H2 H3.
  destruct (C18_crs_dense_scalar a A B b C R WB WC H1 H2 H3) as (C1 & E1 & _ & _ & _ & _ & G1).
  destruct (C18_crs_dense_avx _ a A B b C (or_introl eq_refl) R WB WC H1 H2 H3) as (C2 & E2 & _ & _ & _ & _ & G2).
  destruct (C18_crs_dense_avx _ a A B b C (or_intror eq_refl) R WB WC H1 H2 H3) as (C3 & E3 & _ & _ & _ & _ & G3).
  exists C1, C2, C3. split; auto. split; auto. split; auto. intros i j Hi Hj r.
  assert (G : row_sum f0 (fun v => v) (crs_row A i) B j = mm (m_col A) (summed (crs_entries A)) (dense_fn B) i j).
  { destruct R as (A' & Hs & W). pose proof Hs as (Q1 & Q2 & _).
    rewrite (crs_sim_row Hs), (crs_sim_entries Hs), Q2 by auto. apply row_sum_mm; auto. lia. }
  rewrite G1, G2, G3 by auto. rewrite !(row_sum_scaled Hex). rewrite G. auto.
Qed.
Print Assumptions C18_crs_dense_exact.

Theorem C18_crs_dense_sizes {F} {SF : Scalar F} (a : F) (A : crs F) B b C entry :
  m_col A <> d_row B \/ m_row A <> d_row C \/ d_col B <> d_col C ->
  crs_dense_matmul_scalar a A B b C = Abort /\ crs_dense_matmul_avx entry a A B b C = Abort.
Proof. exact (@crs_dense_badsize F SF a A B b C entry). Qed.
Print Assumptions C18_crs_dense_sizes.

Example C18_example :
  exists A B C C', crs_of_arrays 1 2 2 [0;2] [0;1] [2;3]%Z = Ok A /\ crs_ok A /\
    dense_of_array 2 5 [1;2;3;4;5;10;20;30;40;50]%Z = Ok B /\ dense_ok B /\
    dense_of_array 1 5 [1;1;1;1;1]%Z = Ok C /\ dense_ok C /\
    crs_dense_matmul_avx avx_entry_double 10%Z A B 7%Z C = Ok C' /\
    d_val C' = [327;647;967;1287;1607]%Z.
Proof.
  do 4 eexists. split; [vm_compute; reflexivity|].
  split; [unfold crs_ok, rpn, cin; cbn; repeat split; auto; intros i Hi; destruct i as [|[|[|i]]]; cbn; lia|].
  split; [vm_compute; reflexivity|]. split; [repeat split; cbn; lia|].
  split; [vm_compute; reflexivity|]. split; [repeat split; cbn; lia|].
  split; vm_compute; reflexivity.
Qed.

(** ** C19 *)
Theorem C19_crs_scal_times {F} {SF : Scalar F} (alpha : F) (A C : crs F) (x z : list F) :
  crs_ok A -> crs_ok C -> same_pattern A C -> crs_same_structure A C = true ->
  length x = m_col A -> length z = m_row A ->
  (exists A', crs_scal alpha A = Ok A' /\ crs_ok A' /\ m_row A' = m_row A /\ m_col A' = m_col A /\
     crs_entries A' = map_val (fun _ _ v => fmul v alpha) (crs_entries A)) /\
  (exists C', crs_times alpha A C = Ok C' /\ crs_ok C' /\ m_row C' = m_row A /\ m_col C' = m_col A /\
     crs_entries C' = map_val (fun _ _ v => fmul v alpha) (crs_entries A)) /\
  (exists C', crs_times_row A x C = Ok C' /\ crs_ok C' /\ m_row C' = m_row A /\ m_col C' = m_col A /\
     crs_entries C' = map_val (fun _ j v => fmul v (fn x j)) (crs_entries A)) /\
  (exists C', crs_times_col A z C = Ok C' /\ crs_ok C' /\ m_row C' = m_row A /\ m_col C' = m_col A /\
     crs_entries C' = map_val (fun i _ v => fmul v (fn z i)) (crs_entries A)) /\
  (exists C', crs_blas_copy A C = Ok C' /\ crs_ok C' /\ m_row C' = m_row A /\ m_col C' = m_col A /\
     crs_entries C' = crs_entries A).
Proof.
  intros. split; [now apply crs_scal_ok|]. split; [now apply crs_times_ok|]. split; [now apply crs_times_row_ok|].
  split; [now apply crs_times_col_ok|now apply crs_blas_copy_ok].
Qed.
Print Assumptions C19_crs_scal_times.

(** the element view of [map_val]: a stored element (i,j) becomes g i j of it, others stay 0 *)
Theorem C19_map_val_elem {F} {SF : Scalar F} (g : nat -> nat -> F -> F) (A A' : crs F) i j :
  crs_entries A' = map_val g (crs_entries A) ->
  (In (i, j) (map fst (crs_entries A)) -> crs_elem A' i j = g i j (crs_elem A i j)) /\
  (~ In (i, j) (map fst (crs_entries A)) -> crs_elem A' i j = f0 /\ crs_elem A i j = f0).
Proof.
  intros H. unfold crs_elem. rewrite H, last_wins_map_val.
  pose proof (existsb_pos (crs_entries A) i j) as E.
  split; intros G.
  - apply E in G. now rewrite G.
  - destruct (existsb _ _) eqn:EB; [tauto|]. split; auto. now apply last_wins_notin.
Qed.
Print Assumptions C19_map_val_elem.

(** single row / column variants: only that row / column of C changes *)
Theorem C19_crs_times_line {F} {SF : Scalar F} (A C : crs F) num (x z : list F) :
  crs_ok A -> crs_ok C -> same_pattern A C -> crs_same_structure A C = true ->
  (length x = m_col A -> num < m_row A ->
   exists C', crs_times_row_line A num x C = Ok C' /\ crs_ok C' /\ m_row C' = m_row A /\ m_col C' = m_col A /\
     crs_entries C' = map2_val (fun i j v old => if i =? num then fmul v (fn x j) else old)
                        (crs_entries A) (crs_entries C)) /\
  (length z = m_row A -> num < m_col A ->
   exists C', crs_times_col_line A num z C = Ok C' /\ crs_ok C' /\ m_row C' = m_row A /\ m_col C' = m_col A /\
     crs_entries C' = map2_val (fun i j v old => if j =? num then fmul v (fn z i) else old)
                        (crs_entries A) (crs_entries C)).
Proof.
  intros. split; intros; [apply crs_times_row_line_ok|apply crs_times_col_line_ok]; auto. lia.
Qed.
Print Assumptions C19_crs_times_line.

(** the row bound check is off by one: num = rows is accepted and reads past row_ptr *)
Theorem C19_crs_times_line_edge_refuted {F} {SF : Scalar F} (A C : crs F) (x : list F) :
  crs_ok A -> crs_same_structure A C = true -> length x = m_col A ->
  crs_times_row_line A (m_row A) x C = UB.
Proof. exact (@crs_times_row_line_edge F SF A C x). Qed.
Print Assumptions C19_crs_times_line_edge_refuted.

Example C19_example :
  exists A C C', crs_of_arrays 2 2 3 [0;2;3] [0;1;1] [1;2;3]%Z = Ok A /\ crs_of_arrays 2 2 3 [0;2;3] [0;1;1] [7;8;9]%Z = Ok C /\
    crs_ok A /\ crs_ok C /\ same_pattern A C /\ crs_same_structure A C = true /\
    crs_times_row_line A 0 [10;100]%Z C = Ok C' /\ crs_entries C' = [(0,0,(10)%Z); (0,1,(200)%Z); (1,1,(9)%Z)].
Proof.
  do 3 eexists. do 2 (split; [vm_compute; reflexivity|]).
  do 2 (split; [unfold crs_ok, rpn, cin; cbn; repeat split; auto; intros i Hi; destruct i as [|[|[|i]]]; cbn; lia|]).
  split; [repeat split; vm_compute; reflexivity|]. repeat split; vm_compute; reflexivity.
Qed.

(** ** C20 (CRS part) *)
Theorem C20_crs_diag_op {F} {SF : Scalar F} (op : F -> F -> F) (A : crs F) (alpha : F) (vec : list F) :
  crs_ok A -> m_first A = 0 -> length vec = Nat.min (m_row A) (m_col A) ->
  (exists A', crs_diag_scalar op A alpha = Ok A' /\ crs_ok A' /\ m_row A' = m_row A /\ m_col A' = m_col A /\
     crs_entries A' = map_val (fun i j v => if i =? j then op v alpha else v) (crs_entries A)) /\
  (exists A', crs_diag_vector op A vec = Ok A' /\ crs_ok A' /\ m_row A' = m_row A /\ m_col A' = m_col A /\
     crs_entries A' = map_val (fun i j v => if i =? j then op v (fn vec i) else v) (crs_entries A)).
Proof. intros. split; [now apply crs_diag_scalar_ok|now apply crs_diag_vector_ok]. Qed.
Print Assumptions C20_crs_diag_op.

Example C20_example :
  exists A A', crs_of_arrays 2 3 3 [0;2;3] [0;2;1] [1;2;3]%Z = Ok A /\ crs_ok A /\ m_first A = 0 /\
    crs_diag_vector Z.add A [10;20]%Z = Ok A' /\ crs_entries A' = [(0,0,(11)%Z); (0,2,(2)%Z); (1,1,(23)%Z)].
Proof.
  do 2 eexists. split; [vm_compute; reflexivity|].
  split; [unfold crs_ok, rpn, cin; cbn; repeat split; auto; intros i Hi; destruct i as [|[|[|i]]]; cbn; lia|].
  repeat split; vm_compute; reflexivity.
Qed.

(** ** C40 (CRS part) *)
Theorem C40_crs_copy {F} {SF : Scalar F} {SC : Schedule} (m : crs F) :
  crs_ok m ->
  exists a, crs_copy m = Ok a /\ crs_ok a /\ crs_plain a /\ m_row a = m_row m /\ m_col a = m_col m /\
    crs_entries a = crs_entries m.
Proof. exact (@crs_copy_ok F SF SC m). Qed.
Print Assumptions C40_crs_copy.

(** CRS(mat, value) and convert(CRS): correct when col_ind has exactly nnz elements ... *)
Theorem C40_crs_copy_value_partial {F} {SF : Scalar F} {SC : Schedule} (m a : crs F) value :
  crs_ok m -> length (m_ci m) = m_nnz m ->
  (exists a', crs_copy_value m value = Ok a' /\ crs_ok a' /\ crs_plain a' /\ m_row a' = m_row m /\ m_col a' = m_col m /\
    crs_entries a' = map (fun t => (fst t, value)) (crs_entries m)) /\
  (crs_buf a -> m_own a = true -> m_first m = 0 ->
   exists a', crs_convert_crs a m = Ok a' /\ crs_ok a' /\ crs_plain a' /\ m_row a' = m_row m /\ m_col a' = m_col m /\
    crs_entries a' = crs_entries m).
Proof.
  intros W H. split; [now apply crs_copy_value_ok|]. intros Ha Ho Hf.
  destruct (@crs_convert_crs_ok F SF a m) as (a' & E & Q1 & Q2 & Q3 & Q4 & Q5 & _); auto.
  exists a'. auto 10.
Qed.
Print Assumptions C40_crs_copy_value_partial.

(** ... and a heap overrun whenever col_ind is longer, which is what CRS(COO) produces from a COO
    built by insert (capacity doubling) *)
Theorem C40_crs_copy_overrun_refuted {F} {SF : Scalar F} {SC : Schedule} (m a : crs F) value :
  crs_ok m -> m_nnz m < length (m_ci m) ->
  crs_copy_value m value = UB /\ (crs_buf a -> m_own a = true -> crs_convert_crs a m = UB).
Proof. intros. split; [now apply crs_copy_value_overrun|]. intros. now apply crs_convert_crs_overrun. Qed.
Print Assumptions C40_crs_copy_overrun_refuted.

Example C40_overrun_reachable :
  exists c m, coo_inserts (coo_new 2 2) [(0,0,1%Z); (1,1,2%Z)] = Ok c /\ crs_convert_coo crs_empty c = Ok m /\
    crs_ok m /\ m_nnz m < length (m_ci m) /\ crs_copy_value m 0%Z = UB.
Proof.
  do 2 eexists. split; [vm_compute; reflexivity|]. split; [vm_compute; reflexivity|].
  split; [unfold crs_ok, rpn, cin; cbn; repeat split; auto; try lia; intros i Hi; destruct i as [|[|[|i]]]; cbn; lia|].
  split; [vm_compute; lia|vm_compute; reflexivity].
Qed.
