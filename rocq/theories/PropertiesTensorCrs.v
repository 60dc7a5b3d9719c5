(** * PropertiesTensorCrs: C58 (conversions to tensor_CRS), C59 (tensvec), C60 (tensmat, tensmul),
    C61 (element-wise operations and comparison). *)
From Coq Require Import NArith.
From Verif Require Import Base Scalar Spec SumFacts Loops DenseModel CooModel Observe CooProof CooMiscProof
  CrsModel CrsObserve CrsProof CrsBlasProof CrsMatmulProof CrsMiscProof TensorModel TensorSpec TensorProof TensorBlasModel
  TensorBlasProof TensorCrsModel TensorCrsSpec TensorCrsProof TensorCrsProof2 TensorCrsProof3 TensorCrsProof4.
Set Implicit Arguments.

(** ** C58: conversions *)
Section C58.
Context {F : Type} {SF : Scalar F} {SC : Schedule}.

(** Converting a sorted tensor_COO into an object that holds no structure yet: every slice and row lists the
    stored entries of that slice and row, in order; duplicates and empty rows included; any rank >= 2, any
    scalar type.  Missing from the full claim: unsorted input and re-used objects, where it is false. *)
Theorem C58_convert_partial (t : tcrs F) (q : tcoo F) :
  2 <= length (q_shape q) -> tc_ok q -> tc_inside q -> pos_sorted (tc_entries q) -> tr_fresh t ->
  exists A, tr_convert_coo t q = Ok A /\ k_shape A = q_shape q /\ k_nnz A = q_nnz q /\ tr_readable A /\
    forall p i, inside (slices (q_shape q)) p -> i < n_rows (q_shape q) ->
      tr_row A p i = ent_row (tc_entries q) p i.
Proof.
  intros H1 H2 H3 H4 H5.
  destruct (@tr_convert_coo_ok F SF SC q H1 H2 H3 H4 t H5) as (A & E & K1 & K2 & _ & _ & _ & _ & _ & K3 & _ & K4).
  exists A. auto.
Qed.

(** A matrix::CRS becomes a rank-2 tensor_CRS with the same rows. *)
Theorem C58_from_crs (a : crs F) : crs_ok a -> m_first a = 0 -> length (m_ci a) = m_nnz a ->
  exists A, tr_convert_crs tr_empty a = Ok A /\ tr_readable A /\ k_shape A = [m_row a; m_col a] /\ k_nnz A = m_nnz a /\
    forall i, i < m_row a -> tr_row A [] i = crs_row a i.
Proof.
  intros W H0 HC. destruct (@tr_convert_crs_ok F SF tr_empty a W H0 HC) as (A & E & K1 & K2 & K3 & K4 & K5); auto.
  - repeat split; auto.
  - exists A. auto.
Qed.

(** The copy constructor reproduces shape and rows. *)
Theorem C58_copy (m : tcrs F) : tr_readable m -> k_first m = 0 ->
  exists A, tr_copy m = Ok A /\ tr_readable A /\ k_shape A = k_shape m /\ k_nnz A = k_nnz m /\ k_hash A = k_hash m /\
    forall p i, inside (slices (k_shape m)) p -> i < n_rows (k_shape m) -> tr_row A p i = tr_row m p i.
Proof.
  intros W H0. destruct (@tr_convert_tcrs_ok F SF tr_empty m W H0) as (A & E & K1 & K2 & K3 & K4 & K5 & K6 & K7 & K8 & K9 & K10); auto.
  - repeat split; auto.
  - exists A. auto 10.
Qed.
End C58.
Print Assumptions C58_convert_partial.
Print Assumptions C58_from_crs.
Print Assumptions C58_copy.

Local Existing Instance one_thread.
(** 2 x 2 x 3, with an empty row and a duplicate position *)
Definition qz : tcoo Z :=
  mkTC [2;2;3] [[0;0;0]; [0;0;2]; [1;0;1]; [1;0;1]; [1;1;0]] [5%Z; 6%Z; 7%Z; 8%Z; 9%Z] 5 5 true.
Lemma qz_ok : 2 <= length (q_shape qz) /\ tc_ok qz /\ tc_inside qz /\ pos_sorted (tc_entries qz).
Proof.
  split; [cbn; lia|]. split; [repeat split; cbn; lia|]. split.
  - intros p v H. cbn in H. repeat destruct H as [H|H]; try injection H as <- <-; try tauto; repeat constructor.
  - unfold pos_sorted, tc_entries. cbn [qz q_nnz q_index q_val firstn List.combine].
    repeat (apply SSorted_cons || apply SSorted_nil || apply Forall_cons || apply Forall_nil); cbn; lia.
Qed.
Example C58_example : exists A, tr_convert_coo (SF := Zscalar) tr_empty qz = Ok A /\
  tr_row (SF := Zscalar) A [0] 0 = [(0, 5%Z); (2, 6%Z)] /\ tr_row (SF := Zscalar) A [0] 1 = [] /\
  tr_row (SF := Zscalar) A [1] 0 = [(1, 7%Z); (1, 8%Z)] /\ tr_row (SF := Zscalar) A [1] 1 = [(0, 9%Z)] /\
  exists A', tr_copy (SF := Zscalar) A = Ok A' /\ tr_row (SF := Zscalar) A' [1] 0 = [(1, 7%Z); (1, 8%Z)].
Proof.
  eexists; split; [vm_compute; reflexivity|]. do 4 (split; [vm_compute; reflexivity|]).
  eexists; split; [vm_compute; reflexivity|]. vm_compute; reflexivity.
Qed.

(** False of the code: converting twice into the same object appends to col_inds, so the slices after the first
    are read from the wrong place and the next product reads outside the value buffer. *)
Theorem C58_reuse_refuted : exists (q : tcoo Z) A A',
  (2 <= length (q_shape q) /\ tc_ok q /\ tc_inside q /\ pos_sorted (tc_entries q)) /\
  tr_convert_coo (SF := Zscalar) tr_empty q = Ok A /\ tr_convert_coo (SF := Zscalar) A q = Ok A' /\
  k_nnz A' = q_nnz q /\ list_sum (map (@length nat) (k_cis A')) = 2 * q_nnz q /\
  exists C, td_ok C /\ t_shape C ++ [3] = q_shape q /\
    (exists C', tr_tensvec (SF := Zscalar) A [1%Z; 1%Z; 1%Z] C = Ok C') /\
    tr_tensvec (SF := Zscalar) A' [1%Z; 1%Z; 1%Z] C = UB.
Proof.
  exists qz. do 2 eexists. split; [apply qz_ok|]. split; [vm_compute; reflexivity|]. split; [vm_compute; reflexivity|].
  split; [vm_compute; reflexivity|]. split; [vm_compute; reflexivity|].
  exists (mkTD [2;2] [0%Z;0%Z;0%Z;0%Z] 0 4 4 true). split; [repeat split; cbn; lia|]. split; [reflexivity|].
  split; [eexists; vm_compute; reflexivity|]. vm_compute; reflexivity.
Qed.

(** False of the code: an unsorted tensor_COO is accepted and loses entries. *)
Theorem C58_unsorted_refuted : exists (q : tcoo Z) A,
  2 <= length (q_shape q) /\ tc_ok q /\ tc_inside q /\ tr_convert_coo (SF := Zscalar) tr_empty q = Ok A /\
  exists i, i < n_rows (q_shape q) /\ tr_row (SF := Zscalar) A [] i <> ent_row (tc_entries q) [] i.
Proof.
  exists (mkTC [2;2] [[1;0]; [0;0]] [5%Z; 6%Z] 2 2 true). eexists. split; [cbn; lia|]. split; [repeat split; cbn; lia|].
  split. { intros p v H. cbn in H. repeat destruct H as [H|H]; try injection H as <- <-; try tauto; repeat constructor. }
  split; [vm_compute; reflexivity|]. exists 0. split; [cbn; lia|]. vm_compute. discriminate.
Qed.

(** False of the code: rank 1 reads shape[-1]. *)
Theorem C58_rank1_refuted : exists q : tcoo Z, tc_ok q /\ tc_inside q /\ length (q_shape q) = 1 /\
  tr_convert_coo (SF := Zscalar) tr_empty q = UB.
Proof.
  exists (mkTC [2] [[1]] [5%Z] 1 1 true). split; [repeat split; cbn; lia|].
  split. { intros p v H. cbn in H. repeat destruct H as [H|H]; try injection H as <- <-; try tauto; repeat constructor. }
  split; [reflexivity|vm_compute; reflexivity].
Qed.
Print Assumptions C58_reuse_refuted.
Print Assumptions C58_unsorted_refuted.
Print Assumptions C58_rank1_refuted.

(** ** C59: tensvec *)
Section C59.
Context {F : Type} {SF : Scalar F} {SC : Schedule}.

(** C[p,i] is the sum, from 0 and in storage order, of value * x[column] over the stored entries of row (p,i); any
    scalar type, bit-exact; nothing outside C changes. *)
Theorem C59_tensvec (A : tcrs F) (x : list F) (C : tdense F) :
  tr_readable A -> td_ok C -> k_shape A = t_shape C ++ [length x] ->
  exists C', tr_tensvec A x C = Ok C' /\ td_ok C' /\ t_shape C' = t_shape C /\ tsame_outside C C' /\
    forall p i, inside (slices (k_shape A)) p -> i < n_rows (k_shape A) ->
      td_at C' (p ++ [i]) = Ok (row_fold f0 (fun v => v) (tr_row A p i) (fn x)).
Proof. intros. exact (tr_tensvec_ok f1 f0 x H H0 H1). Qed.

(** Any other combination of shapes aborts. *)
Theorem C59_sizes (A : tcrs F) (x : list F) (C : tdense F) : 2 <= length (k_shape A) ->
  k_shape A <> t_shape C ++ [length x] -> tr_tensvec A x C = Abort.
Proof.
  intros H1 H2. unfold tr_tensvec, tr_tensvec_ab. rewrite last_two_eq by auto. cbn [bind].
  destruct (Nat.eqb_spec (n_cols (k_shape A)) (length x)) as [E|]; [|reflexivity]. cbn [assert_ bind].
  rewrite E. destruct (list_eq_dec Nat.eq_dec (k_shape A) (t_shape C ++ [length x])); [contradiction|reflexivity].
Qed.

(** Exact arithmetic, from the tensor_COO to the result: C[p,i] = sum_k A[p,i,k] x[k], where A[..] is the sum of
    the values stored at that position. *)
Theorem C59_from_coo (q : tcoo F) (x : list F) (C : tdense F) : exact SF ->
  2 <= length (q_shape q) -> tc_ok q -> tc_inside q -> pos_sorted (tc_entries q) ->
  td_ok C -> q_shape q = t_shape C ++ [length x] ->
  exists A C', tr_convert_coo tr_empty q = Ok A /\ tr_tensvec A x C = Ok C' /\ t_shape C' = t_shape C /\
    forall p i, inside (slices (q_shape q)) p -> i < n_rows (q_shape q) ->
      td_at C' (p ++ [i]) = Ok (sum_n (length x) (fun k => fmul (sum_at (tc_entries q) (p ++ [i; k])) (fn x k))).
Proof.
  intros Hex H1 H2 H3 H4 HC HS.
  destruct (@tr_convert_coo_ok F SF SC q H1 H2 H3 H4 tr_empty) as (A & E & K1 & K2 & _ & _ & _ & _ & _ & K3 & _ & K4); [repeat split; auto|].
  destruct (@C59_tensvec A x C) as (C' & E' & K5 & K6 & K7 & K8); auto; [congruence|].
  exists A, C'. split; auto. split; auto. split; auto. intros p i Hp Hi. rewrite K8 by (rewrite K1; auto). f_equal.
  rewrite K4 by auto. apply (row_fold_sum Hex). intros [pos v] He. cbn [fst].
  pose proof (H3 pos v He) as Hin. rewrite HS in Hin.
  apply inside_last in Hin. tauto.
Qed.

(** sum_at is the stored value when the position is stored once, and 0 when it is not stored *)
Theorem C59_values (ts : list (list nat * F)) : exact SF ->
  (forall pos v, NoDup (map fst ts) -> In (pos, v) ts -> sum_at ts pos = v) /\
  (forall pos, ~ In pos (map fst ts) -> sum_at ts pos = f0).
Proof. intros Hex. split; intros; [now apply (sum_at_unique Hex)|now apply (sum_at_notin Hex)]. Qed.

(** The a and b arguments of the internal entry point are ignored (harmless: every caller passes 1 and 0). *)
Theorem C59_ab (a b : F) (A : tcrs F) (x : list F) (C : tdense F) :
  tr_readable A -> td_ok C -> k_shape A = t_shape C ++ [length x] ->
  exists C', tr_tensvec_ab a A x b C = Ok C' /\
    forall p i, inside (slices (k_shape A)) p -> i < n_rows (k_shape A) ->
      td_at C' (p ++ [i]) = Ok (row_fold f0 (fun v => v) (tr_row A p i) (fn x)).
Proof. intros. destruct (tr_tensvec_ok a b x H H0 H1) as (C' & E & _ & _ & _ & K). exists C'. auto. Qed.
End C59.
Print Assumptions C59_tensvec.
Print Assumptions C59_sizes.
Print Assumptions C59_from_coo.
Print Assumptions C59_values.
Print Assumptions C59_ab.

Definition cz : tdense Z := mkTD [2;2] [(-1)%Z;(-1)%Z;(-1)%Z;(-1)%Z] 0 4 4 true.
Example C59_example : exists A C', tr_convert_coo (SF := Zscalar) tr_empty qz = Ok A /\ td_ok cz /\
  k_shape A = t_shape cz ++ [length [1%Z; 10%Z; 100%Z]] /\
  tr_tensvec (SF := Zscalar) A [1%Z; 10%Z; 100%Z] cz = Ok C' /\ t_val C' = [605%Z; 0%Z; 150%Z; 9%Z].
Proof.
  do 2 eexists. split; [vm_compute; reflexivity|]. split; [repeat split; cbn; lia|].
  split; [reflexivity|]. split; vm_compute; reflexivity.
Qed.

(** ** C60: tensmat and tensmul *)
Section C60.
Context {F : Type} {SF : Scalar F} {SC : Schedule}.

Lemma variant_computes mul g : variant (F := F) mul g -> mul_computes mul g.
Proof.
  intros [[-> ->] | [[-> ->] | [-> ->]]]; [apply scalar_computes|apply avx_computes, avx_entry_double_ok|apply avx_computes, avx_entry_float_ok].
Qed.

(** C[p,i,j] from the stored entries of row (p,i) and column j of B; in each compiled variant with its own
    association of the products; bit-exact, any scalar type. *)
Theorem C60_tensmat mul g (a b : F) (A : tcrs F) (B : dense F) (C : tdense F) : variant mul g ->
  tr_readable A -> dense_ok B -> td_ok C -> n_cols (k_shape A) = d_row B ->
  t_shape C = slices (k_shape A) ++ [n_rows (k_shape A); d_col B] ->
  exists C', tr_tensmat_ab mul a A B b C = Ok C' /\ td_ok C' /\ t_shape C' = t_shape C /\ tsame_outside C C' /\
    forall p i j old, inside (slices (k_shape A)) p -> i < n_rows (k_shape A) -> j < d_col B ->
      td_at C (p ++ [i; j]) = Ok old ->
      td_at C' (p ++ [i; j]) = Ok (g a b old (tr_row A p i) (fun k => dense_fn B k j)).
Proof. intros V. apply tr_tensmat_ok. now apply variant_computes. Qed.

Theorem C60_tensmul mul g (a b : F) (A : tcrs F) (B C : tdense F) (rest : list nat) : variant mul g ->
  tr_readable A -> td_ok B -> td_ok C -> t_shape B = n_cols (k_shape A) :: rest -> 0 < n_cols (k_shape A) ->
  t_shape C = slices (k_shape A) ++ n_rows (k_shape A) :: rest ->
  int_range (prod (t_shape B)) -> int_range (n_cols (k_shape A)) -> int_range (n_rows (k_shape A)) ->
  int_range (n_rows (k_shape A) * prod rest) ->
  exists C', tr_tensmul_ab mul a A B b C = Ok C' /\ td_ok C' /\ t_shape C' = t_shape C /\ tsame_outside C C' /\
    forall p i r old (w : nat -> F), inside (slices (k_shape A)) p -> i < n_rows (k_shape A) -> inside rest r ->
      td_at C (p ++ i :: r) = Ok old -> (forall k, k < n_cols (k_shape A) -> td_at B (k :: r) = Ok (w k)) ->
      td_at C' (p ++ i :: r) = Ok (g a b old (tr_row A p i) w).
Proof.
  intros V HR HB HC H1 H2 H3 H4 H5 H6 H7.
  destruct (@tr_tensmul_ok F SF SC mul g a b A B C rest) as (C' & E & K1 & K2 & K3 & K4); auto; [now apply variant_computes|].
  exists C'. split; auto. split; auto. split; auto. split; auto.
  intros p i r old w Hp Hi Hr Ho Hw. destruct (K4 p i r old w) as (w' & Hw' & ->); auto. f_equal.
  assert (Hext : forall z wt, row_fold z wt (tr_row A p i) w' = row_fold z wt (tr_row A p i) w).
  { intros. apply row_fold_ext. intros e He. apply Hw'. now apply (@tr_row_lt F SF A p i e). }
  destruct V as [[_ ->] | [[_ ->] | [_ ->]]]; unfold g_scalar, g_avx; now rewrite Hext.
Qed.

(** In exact arithmetic every variant gives a * sum + b * old. *)
Theorem C60_exact mul g (a b old : F) l w : exact SF -> variant mul g ->
  g a b old l w = fadd (fmul a (row_fold f0 (fun v => v) l w)) (fmul b old).
Proof.
  intros Hex V. pose proof (Hex : ring_theory _ _ _ _ _ _ _) as Hrt.
  destruct V as [[_ ->] | [[_ ->] | [_ ->]]]; auto; unfold g_avx; rewrite (row_fold_exact Hex); apply (Radd_comm Hrt).
Qed.

(** From the tensor_COO to the result of tensmat, exact arithmetic. *)
Theorem C60_from_coo mul g (q : tcoo F) (B : dense F) (C : tdense F) : exact SF -> variant mul g ->
  2 <= length (q_shape q) -> tc_ok q -> tc_inside q -> pos_sorted (tc_entries q) ->
  dense_ok B -> td_ok C -> n_cols (q_shape q) = d_row B ->
  t_shape C = slices (q_shape q) ++ [n_rows (q_shape q); d_col B] ->
  exists A C', tr_convert_coo tr_empty q = Ok A /\ tr_tensmat mul A B C = Ok C' /\ t_shape C' = t_shape C /\
    forall p i j, inside (slices (q_shape q)) p -> i < n_rows (q_shape q) -> j < d_col B ->
      td_at C' (p ++ [i; j]) = Ok (sum_n (d_row B) (fun k => fmul (sum_at (tc_entries q) (p ++ [i; k])) (dense_fn B k j))).
Proof.
  intros Hex V H1 H2 H3 H4 HB HC HK HCs.
  destruct (@tr_convert_coo_ok F SF SC q H1 H2 H3 H4 tr_empty) as (A & E & K1 & K2 & _ & _ & _ & _ & _ & K3 & _ & K4); [repeat split; auto|].
  destruct (@C60_tensmat mul g f1 f0 A B C V K3 HB HC) as (C' & E' & K5 & K6 & K7 & K8); try (rewrite K1; auto).
  exists A, C'. split; auto. split; auto. split; auto. intros p i j Hp Hi Hj.
  assert (Hin : inside (t_shape C) (p ++ [i; j])) by (rewrite HCs; apply inside_app; auto; repeat constructor; auto).
  rewrite (K8 p i j (tel C (p ++ [i; j]))); rewrite ?K1; auto.
  2: { now apply td_at_ok. }
  f_equal. rewrite (@C60_exact mul g) by auto. rewrite K4 by auto.
  pose proof (Hex : ring_theory _ _ _ _ _ _ _) as Hrt.
  rewrite (row_fold_sum Hex) with (n := d_row B).
  - rewrite (ex_one_zero Hex). reflexivity.
  - intros [pos v] He. cbn [fst]. pose proof (H3 pos v He) as Hin'. rewrite (shape_form _ H1) in Hin'.
    change [n_rows (q_shape q); n_cols (q_shape q)] with ([n_rows (q_shape q)] ++ [n_cols (q_shape q)]) in Hin'. rewrite app_assoc in Hin'.
    apply inside_last in Hin'. rewrite HK in Hin'. tauto.
Qed.

(** Shapes that do not fit abort. *)
Theorem C60_sizes mul (a b : F) (A : tcrs F) : 2 <= length (k_shape A) ->
  (forall B C, t_shape C <> [] ->
     ~ (n_cols (k_shape A) = d_row B /\ t_shape C = slices (k_shape A) ++ [n_rows (k_shape A); d_col B]) ->
     tr_tensmat_ab mul a A B b C = Abort) /\
  (forall B C b0 rest, t_shape B = b0 :: rest ->
     ~ (n_cols (k_shape A) = b0 /\ t_shape C = slices (k_shape A) ++ n_rows (k_shape A) :: rest) ->
     tr_tensmul_ab mul a A B b C = Abort).
Proof.
  intros H1.
  assert (Hf : firstn (length (k_shape A) - 1) (k_shape A) = slices (k_shape A) ++ [n_rows (k_shape A)]).
  { rewrite (shape_form _ H1) at 2. change [n_rows (k_shape A); n_cols (k_shape A)] with ([n_rows (k_shape A)] ++ [n_cols (k_shape A)]).
    rewrite app_assoc, firstn_app. rewrite app_length. unfold slices at 2 3. rewrite firstn_length. cbn [length].
    replace (length (k_shape A) - 1 - (Nat.min (length (k_shape A) - 2) (length (k_shape A)) + 1)) with 0 by lia.
    cbn [firstn]. rewrite app_nil_r. apply firstn_all2. rewrite app_length. unfold slices. rewrite firstn_length. cbn [length]. lia. }
  split.
  - intros B C HC HN. unfold tr_tensmat_ab. rewrite last_two_eq by auto. cbn [bind].
    destruct (Nat.eqb_spec (n_cols (k_shape A)) (d_row B)) as [E1|]; [|reflexivity]. cbn [assert_ bind].
    assert (HL : length (t_shape C) <> 0) by (destruct (t_shape C); cbn; congruence).
    rewrite (@rd_lt nat _ _ 0) by lia. cbn [bind].
    destruct (Nat.eqb_spec (d_col B) (nth (length (t_shape C) - 1) (t_shape C) 0)) as [E2|]; [|reflexivity]. cbn [assert_ bind].
    destruct (length (k_shape A) =? length (t_shape C)); [|reflexivity]. cbn [assert_ bind].
    rewrite <- E2, Hf, <- app_assoc. cbn [app].
    destruct (list_eq_dec Nat.eq_dec (slices (k_shape A) ++ [n_rows (k_shape A); d_col B]) (t_shape C)) as [E3|]; [|reflexivity].
    exfalso. apply HN. auto.
  - intros B C b0 rest HB HN. unfold tr_tensmul_ab. rewrite last_two_eq by auto. cbn [bind]. rewrite HB. cbn [rd nth_error bind tl].
    destruct (Nat.eqb_spec (n_cols (k_shape A)) b0) as [E1|]; [|reflexivity]. cbn [assert_ bind].
    rewrite Hf, <- app_assoc. cbn [app].
    destruct (list_eq_dec Nat.eq_dec (slices (k_shape A) ++ n_rows (k_shape A) :: rest) (t_shape C)) as [E3|]; [|reflexivity].
    exfalso. apply HN. auto.
Qed.
End C60.
Print Assumptions C60_tensmat.
Print Assumptions C60_tensmul.
Print Assumptions C60_exact.
Print Assumptions C60_from_coo.
Print Assumptions C60_sizes.

Definition bz : dense Z := mkDense 3 2 [1%Z; 2%Z; 10%Z; 20%Z; 100%Z; 200%Z] 0 6 6 true.
Definition tbz : tdense Z := mkTD [3;1;2] [1%Z; 2%Z; 10%Z; 20%Z; 100%Z; 200%Z] 0 6 6 true.
Definition c3 : tdense Z := mkTD [2;2;2] [1%Z;1%Z;1%Z;1%Z;1%Z;1%Z;1%Z;1%Z] 0 8 8 true.
Definition c4 : tdense Z := mkTD [2;2;1;2] [1%Z;1%Z;1%Z;1%Z;1%Z;1%Z;1%Z;1%Z] 0 8 8 true.
Example C60_example : exists A C' C'', tr_convert_coo (SF := Zscalar) tr_empty qz = Ok A /\
  dense_ok bz /\ td_ok c3 /\ td_ok tbz /\ td_ok c4 /\
  tr_tensmat (SF := Zscalar) (crs_dense_matmul_avx avx_entry_double) A bz c3 = Ok C' /\
  t_val C' = [605%Z; 1210%Z; 0%Z; 0%Z; 150%Z; 300%Z; 9%Z; 18%Z] /\
  tr_tensmul (SF := Zscalar) crs_dense_matmul_scalar A tbz c4 = Ok C'' /\
  t_val C'' = [605%Z; 1210%Z; 0%Z; 0%Z; 150%Z; 300%Z; 9%Z; 18%Z].
Proof.
  do 3 eexists. split; [vm_compute; reflexivity|]. do 4 (split; [repeat split; cbn; lia|]).
  split; [vm_compute; reflexivity|]. split; [vm_compute; reflexivity|]. split; vm_compute; reflexivity.
Qed.

(** ** C61: element-wise operations and comparison *)
Section C61.
Context {F : Type} {SF : Scalar F}.

(** Two (or three) tensor_CRS objects with the same index arrays and the same structure hash: every stored value
    of the result is the operation applied to the stored values at the same place.
    Missing from the full claim: arguments whose index arrays differ although the guard accepts them
    (C61_guard_refuted) and objects built from arrays (C61_from_arrays_refuted). *)
Theorem C61_elementwise_partial (alpha : F) (A C : tcrs F) (x : list F) h :
  tr_readable A -> k_first A + k_nnz A <= length (k_val A) ->
  same_arrays A C -> length (k_val C) = k_alloc C -> k_first C + k_nnz A <= k_alloc C ->
  k_hash A = Some h -> k_hash C = Some h ->
  (exists C', tr_times alpha A C = Ok C' /\ tr_readable C' /\ k_shape C' = k_shape A /\
     forall p i, inside (slices (k_shape A)) p -> i < n_rows (k_shape A) ->
       tr_row C' p i = map (fun e => (fst e, fmul (snd e) alpha)) (tr_row A p i)) /\
  (exists C', tr_blas_copy A C = Ok C' /\ tr_readable C' /\ k_shape C' = k_shape A /\
     forall p i, inside (slices (k_shape A)) p -> i < n_rows (k_shape A) -> tr_row C' p i = tr_row A p i) /\
  (length x = n_cols (k_shape A) ->
   (forall d i, d < length (k_rps A) -> n_rows (k_shape A) < i -> nth i (nth d (k_rps A) []) 0 = 0) ->
   exists C', tr_times_row A x C = Ok C' /\ tr_readable C' /\ k_shape C' = k_shape A /\
     forall p i, inside (slices (k_shape A)) p -> i < n_rows (k_shape A) ->
       tr_row C' p i = map (fun e => (fst e, fmul (snd e) (fn x (fst e)))) (tr_row A p i)).
Proof.
  intros HR HA HS B1 B2 H1 H2. pose proof HS as (S1 & _). split; [|split].
  - unfold tr_times. rewrite (@tr_same_structure_ok F A C h) by auto. cbn [bind assert_].
    destruct (@tr_map1_ok F SF (fun p => fmul p alpha) A C) as (C' & E & K1 & K2 & K3); auto.
    exists C'. auto.
  - unfold tr_blas_copy. rewrite tr_same_size_refl by auto. cbn [bind assert_].
    rewrite (@tr_same_structure_ok F A C h) by auto. cbn [bind assert_].
    destruct (@tr_map1_ok F SF (fun p => p) A C) as (C' & E & K1 & K2 & K3); auto.
    exists C'. split; auto. split; auto. split; auto. intros p i Hp Hi. rewrite K3 by auto. apply map_id_row.
  - intros Hx HT. now apply (@tr_times_row_ok F SF A C x h).
Qed.

Theorem C61_addsub_partial (op : F -> F -> F) (A B C : tcrs F) h : op = fadd \/ op = fsub ->
  tr_readable A -> k_first A + k_nnz A <= length (k_val A) ->
  same_arrays A B -> k_first B + k_nnz A <= length (k_val B) ->
  same_arrays A C -> length (k_val C) = k_alloc C -> k_first C + k_nnz A <= k_alloc C ->
  k_hash A = Some h -> k_hash B = Some h -> k_hash C = Some h ->
  exists C', tr_tensop op A B C = Ok C' /\ tr_readable C' /\ k_shape C' = k_shape A /\
    forall p i, inside (slices (k_shape A)) p -> i < n_rows (k_shape A) ->
      tr_row C' p i = map (fun q => (fst (fst q), op (snd (fst q)) (snd (snd q)))) (List.combine (tr_row A p i) (tr_row B p i)) /\
      map fst (tr_row B p i) = map fst (tr_row A p i).
Proof.
  intros _ HR HA SB HB SC B1 B2 H1 H2 H3.
  destruct (@tr_tensop_ok F SF op A B C h) as (C' & E & K1 & K2 & K3 & K4 & K5); auto.
  exists C'. split; auto. split; auto. split; auto. intros p i Hp Hi. split; auto. now apply tr_row_pairs.
Qed.

(** In place: tscal and fill. *)
Theorem C61_inplace (alpha : F) (A : tcrs F) :
  tr_readable A -> length (k_val A) = k_alloc A -> k_first A + k_nnz A <= k_alloc A ->
  (exists A', tr_scal alpha A = Ok A' /\ tr_readable A' /\ k_shape A' = k_shape A /\
     forall p i, inside (slices (k_shape A)) p -> i < n_rows (k_shape A) ->
       tr_row A' p i = map (fun e => (fst e, fmul (snd e) alpha)) (tr_row A p i)) /\
  (k_first A = 0 -> exists A', tr_fill A alpha = Ok A' /\ tr_readable A' /\ k_shape A' = k_shape A /\
     forall p i, inside (slices (k_shape A)) p -> i < n_rows (k_shape A) ->
       tr_row A' p i = map (fun e => (fst e, alpha)) (tr_row A p i)).
Proof.
  intros HR B1 B2. split; [now apply tr_scal_ok|]. intros H0. apply tr_fill_ok; auto. lia.
Qed.

(** Different shapes abort; so do different hashes. *)
Theorem C61_sizes (alpha : F) (op : F -> F -> F) (A B C : tcrs F) (x : list F) :
  (k_shape A <> k_shape C -> tr_times alpha A C = Abort /\ tr_blas_copy A C = Abort /\ tr_times_row A x C = Abort /\
     tr_tensop op A B C = Abort) /\
  (k_shape A <> k_shape B -> tr_tensop op A B C = Abort) /\
  (forall h h', k_hash A = Some h -> k_hash C = Some h' -> h <> h' ->
     tr_times alpha A C = Abort /\ tr_blas_copy A C = Abort /\ tr_times_row A x C = Abort).
Proof.
  assert (N : forall D, k_shape A <> k_shape D -> tr_same_size A D = false).
  { intros D H. unfold tr_same_size. destruct (list_eq_dec Nat.eq_dec (k_shape A) (k_shape D)); [contradiction|auto]. }
  split; [|split].
  - intros H. unfold tr_times, tr_blas_copy, tr_times_row, tr_tensop, tr_same_structure. rewrite !(N C H), Bool.andb_false_r. auto.
  - intros H. unfold tr_tensop. rewrite (N B H). auto.
  - intros h h' H1 H2 H3. unfold tr_times, tr_blas_copy, tr_times_row, tr_same_structure.
    destruct (tr_same_size A C); [|auto]. rewrite H1, H2, (proj2 (N.eqb_neq _ _)) by auto. auto.
Qed.

(** operator== on objects whose corresponding arrays have the same lengths: true exactly when the values and the index arrays agree. *)
Lemma equal_st_ok (a b : list (list nat)) : map (@length nat) a = map (@length nat) b ->
  exists r, tr_equal_st a b = Ok r /\ (r = true <-> a = b).
Proof.
  intros HL. assert (HLe : length a = length b) by (rewrite <- (map_length (@length nat) a), HL; apply map_length).
  assert (Hn : forall i, i < length a -> length (nth i a []) = length (nth i b [])).
  { intros i Hi. rewrite <- (@nth_map_lt _ _ (@length nat) 0 [] a i), <- (@nth_map_lt _ _ (@length nat) 0 [] b i) by lia. now rewrite HL. }
  unfold tr_equal_st.
  destruct (@for0_inv _ (fun n r => r = true <-> forall i, i < n -> nth i a [] = nth i b []) (length a)
    (fun i (acc : bool) => if acc then x <- rd a i ;; y <- rd b i ;; vequalI (length x) x y else Ok acc) true) as (r & E & H).
  - split; auto. intros; lia.
  - intros i r Hi H. destruct r.
    + rewrite (@rd_lt _ a i []), (@rd_lt _ b i []) by lia. cbn [bind].
      destruct (@vequalI_ok (length (nth i a [])) (nth i a []) (nth i b [])) as (e & -> & He); try lia. { rewrite Hn by auto. lia. }
      exists e. split; auto. rewrite He. split.
      * intros G j Hj. destruct (Nat.eq_dec j i) as [->|]; [|apply H; auto; lia].
        apply list_ext with (d := 0); [now apply Hn|]. intros k Hk. symmetry. now apply G.
      * intros G k Hk. now rewrite (G i) by lia.
    + exists false. split; auto. split; [discriminate|]. intros G. apply H. intros j Hj. apply G. lia.
  - exists r. split; auto. rewrite H. split; [|intros ->; auto].
    intros G. apply list_ext with (d := []); auto.
Qed.
Theorem C61_equal_partial (a b : tcrs F) :
  k_nnz a <= length (k_val a) -> k_nnz a <= length (k_val b) ->
  map (@length nat) (k_cis a) = map (@length nat) (k_cis b) -> map (@length nat) (k_rps a) = map (@length nat) (k_rps b) ->
  exists r, tr_equal a b = Ok r /\
    (r = true <-> k_shape a = k_shape b /\ k_rps a = k_rps b /\ k_cis a = k_cis b /\
       forall i, i < k_nnz a -> feqb (nth i (k_val b) f0) (nth i (k_val a) f0) = true).
Proof.
  intros H1 H2 H3 H4. unfold tr_equal, tr_same_size.
  destruct (list_eq_dec Nat.eq_dec (k_shape a) (k_shape b)) as [E|N]; [|exists false; split; auto; split; [discriminate|tauto]].
  destruct (@vequalF_ok F SF (k_nnz a) (k_val a) (k_val b)) as (e & -> & He); auto. cbn [bind].
  destruct e; cbn [negb].
  - destruct (equal_st_ok _ _ H3) as (e1 & -> & He1). cbn [bind].
    destruct e1; cbn [negb]; [|exists false; split; auto; split; [discriminate|]; intros (_ & _ & G & _); now apply He1].
    destruct (equal_st_ok _ _ H4) as (e2 & -> & He2). exists e2. split; auto. rewrite He2. tauto.
  - exists false. split; auto. split; [discriminate|]. intros (_ & _ & _ & G). now apply He.
Qed.
End C61.
Print Assumptions C61_elementwise_partial.
Print Assumptions C61_addsub_partial.
Print Assumptions C61_inplace.
Print Assumptions C61_sizes.
Print Assumptions C61_equal_partial.

Example C61_example : exists A C' C'', tr_convert_coo (SF := Zscalar) tr_empty qz = Ok A /\
  tr_times (SF := Zscalar) 2%Z A A = Ok C' /\ k_val C' = [10%Z; 12%Z; 14%Z; 16%Z; 18%Z] /\
  tr_times_row (SF := Zscalar) A [1%Z; 10%Z; 100%Z] A = Ok C'' /\ k_val C'' = [5%Z; 600%Z; 70%Z; 80%Z; 9%Z].
Proof.
  do 3 eexists. split; [vm_compute; reflexivity|]. split; [vm_compute; reflexivity|]. split; [vm_compute; reflexivity|].
  split; vm_compute; reflexivity.
Qed.

(** False of the code: the guard compares sizes only, so tensors with different stored positions are accepted and
    the sum lists values at positions where one of the operands stores nothing. *)
Theorem C61_guard_refuted : exists (q q' : tcoo Z) A B C',
  tc_ok q /\ tc_inside q /\ pos_sorted (tc_entries q) /\ tc_ok q' /\ tc_inside q' /\ pos_sorted (tc_entries q') /\
  tr_convert_coo (SF := Zscalar) tr_empty q = Ok A /\ tr_convert_coo (SF := Zscalar) tr_empty q' = Ok B /\
  tr_tensop Z.add A B A = Ok C' /\
  tr_row (SF := Zscalar) A [] 0 = [(0, 5%Z)] /\ tr_row (SF := Zscalar) B [] 0 = [(1, 7%Z)] /\
  tr_row (SF := Zscalar) C' [] 0 = [(0, 12%Z)].
Proof.
  exists (mkTC [1;2] [[0;0]] [5%Z] 1 1 true), (mkTC [1;2] [[0;1]] [7%Z] 1 1 true). do 3 eexists.
  assert (I : forall j, j < 2 -> forall v : Z, tc_inside (mkTC [1;2] [[0;j]] [v] 1 1 true) /\ pos_sorted (tc_entries (mkTC [1;2] [[0;j]] [v] 1 1 true))).
  { intros j Hj v. split; [|repeat constructor]. intros p w H. cbn in H. destruct H as [H|[]]. injection H as <- <-. constructor; auto. }
  split; [repeat split; cbn; lia|]. split; [apply I; lia|]. split; [apply I; lia|].
  split; [repeat split; cbn; lia|]. split; [apply I; lia|]. split; [apply I; lia|].
  do 5 (split; [vm_compute; reflexivity|]). vm_compute; reflexivity.
Qed.

(** False of the code: an object built with tensor_CRS(shape, row_ptrs, col_inds, value) has an indeterminate
    structure hash, and every operation that checks it uses that value. *)
Theorem C61_from_arrays_refuted : exists A : tcrs Z,
  tr_of_arrays (SF := Zscalar) [1;2] [[0;1]] [[1]] [5%Z] = Ok A /\ tr_readable A /\
  tr_times (SF := Zscalar) 2%Z A A = UB /\ tr_blas_copy A A = UB /\
  tr_tensop Z.add A A A = UB.
Proof.
  eexists. split; [vm_compute; reflexivity|]. split; [|split; [vm_compute; reflexivity|split; vm_compute; reflexivity]].
  split; [cbn; lia|]. split; [reflexivity|]. split; [reflexivity|]. split; [reflexivity|].
  intros d Hd. cbn in Hd. assert (d = 0) by lia. subst.
  apply CrsSimProof.crs_ok_readable. unfold crs_ok, tr_slice, rpn, cin. cbn. repeat split; try lia.
  - intros i Hi. assert (i = 0) by lia. subst. cbn. lia.
  - intros k Hk. assert (k = 0) by lia. subst. cbn. lia.
Qed.

(** False of the code: comparing a copy with its original reads past the end of the original's row_ptrs. *)
Theorem C61_copy_equal_refuted : exists A A', tr_convert_coo (SF := Zscalar) tr_empty qz = Ok A /\
  tr_copy (SF := Zscalar) A = Ok A' /\ tr_equal (SF := Zscalar) A' A = UB /\
  tr_equal (SF := Zscalar) A A' = Ok true.
Proof.
  do 2 eexists. split; [vm_compute; reflexivity|]. split; [vm_compute; reflexivity|]. split; vm_compute; reflexivity.
Qed.
Print Assumptions C61_guard_refuted.
Print Assumptions C61_from_arrays_refuted.
Print Assumptions C61_copy_equal_refuted.
