(** * CrsSimProof: reading a CRS whose trailing row_ptr is unset gives the same results as the repaired one *)
From Verif Require Import Base Scalar Spec Loops DenseModel CooModel Observe CooProof
  CooMiscProof CrsModel CrsObserve CrsProof.
Set Implicit Arguments.

Section CrsSim.
Context {F : Type} {SF : Scalar F} {SC : Schedule}.

Lemma crs_sim_refl (a : crs F) : crs_ok a -> crs_sim a a.
Proof. intros (H & _). unfold crs_sim. repeat split; auto. Qed.

Lemma crs_ok_readable (a : crs F) : crs_ok a -> crs_readable a.
Proof. intros H. exists a. split; auto using crs_sim_refl. Qed.

Lemma crs_sim_row (a b : crs F) i : crs_sim a b -> i < m_row a -> crs_row a i = crs_row b i.
Proof.
  intros (H1 & H2 & H3 & H4 & H5 & H6 & H7 & H8 & H) Hi. unfold crs_row, cin, vln.
  rewrite H3, H4, H5. destruct (H i Hi) as [[-> ->]|[G1 G2]]; auto.
  replace (rpn a (i + 1) - rpn a i) with 0 by lia. replace (rpn b (i + 1) - rpn b i) with 0 by lia. auto.
Qed.

Lemma crs_sim_entries (a b : crs F) : crs_sim a b -> crs_entries a = crs_entries b.
Proof.
  intros H. unfold crs_entries. rewrite <- (proj1 H).
  rewrite !flat_map_concat_map. f_equal. apply map_ext_in. intros i Hi. apply in_seq in Hi.
  rewrite (crs_sim_row H); auto; lia.
Qed.

Lemma crs_sim_loop {S} (a b : crs F) i (body : nat -> S -> res S) s : crs_sim a b -> i < m_row a ->
  for_ (rpn a i) (rpn a (i + 1)) body s = for_ (rpn b i) (rpn b (i + 1)) body s.
Proof.
  intros (_ & _ & _ & _ & _ & _ & _ & _ & H) Hi.
  destruct (H i Hi) as [[-> ->]|[G1 G2]]; auto. rewrite !for_empty; auto.
Qed.

Lemma crs_sim_rd (a b : crs F) i : crs_sim a b -> i <= m_row a ->
  rd (m_rp a) i = Ok (rpn a i) /\ rd (m_rp b) i = Ok (rpn b i).
Proof.
  intros (H1 & _ & _ & _ & _ & _ & H7 & H8 & _) Hi. split; apply rd_lt; lia.
Qed.

Ltac simrd H i := 
  rewrite (proj1 (@crs_sim_rd _ _ i H ltac:(lia))), (proj1 (@crs_sim_rd _ _ (i + 1) H ltac:(lia))),
    (proj2 (@crs_sim_rd _ _ i H ltac:(lia))), (proj2 (@crs_sim_rd _ _ (i + 1) H ltac:(lia))); cbn [bind].

Lemma crs_sim_matvec (a b : crs F) al x be y t : crs_sim a b ->
  crs_matvec_core al a x be y t = crs_matvec_core al b x be y t.
Proof.
  intros H. pose proof H as (H1 & H2 & H3 & H4 & H5 & H6 & H7 & H8 & HR).
  unfold crs_matvec_core. rewrite <- H1, <- H2, <- H3, <- H4, <- H5.
  match goal with |- bind ?m _ = bind ?m _ => destruct m; auto; cbn [bind] end.
  destruct t.
  - match goal with |- bind ?m _ = bind ?m _ => destruct m; auto; cbn [bind] end.
    apply for_ext. intros i s Hi. simrd H i. apply (crs_sim_loop _ _ H); lia.
  - apply for_ext. intros i s Hi. simrd H i. rewrite (crs_sim_loop _ _ H) by lia. reflexivity.
Qed.

Lemma crs_sim_coo (a b : crs F) c : crs_sim a b -> coo_convert_crs c a = coo_convert_crs c b.
Proof.
  intros H. pose proof H as (H1 & H2 & H3 & H4 & H5 & H6 & H7 & H8 & HR).
  unfold coo_convert_crs. rewrite <- H1, <- H2, <- H3, <- H4, <- H6.
  match goal with |- bind ?m _ = bind ?m _ => destruct m; auto; cbn [bind] end.
  f_equal. apply for_ext. intros i s Hi. simrd H i. apply (crs_sim_loop _ _ H); lia.
Qed.

Lemma crs_sim_dense_scalar (a b : crs F) al B be C : crs_sim a b ->
  crs_dense_matmul_scalar al a B be C = crs_dense_matmul_scalar al b B be C.
Proof.
  intros H. pose proof H as (H1 & H2 & H3 & H4 & H5 & H6 & H7 & H8 & HR).
  unfold crs_dense_matmul_scalar. rewrite <- H1, <- H2, <- H3, <- H4, <- H5.
  do 3 match goal with |- bind ?m _ = bind ?m _ => destruct m; auto; cbn [bind] end.
  f_equal. apply for_ext. intros j s Hj. apply for_ext. intros i s' Hi. simrd H i.
  rewrite (crs_sim_loop _ _ H) by lia. reflexivity.
Qed.

Lemma crs_sim_dense_avx entry (a b : crs F) al B be C : crs_sim a b ->
  crs_dense_matmul_avx entry al a B be C = crs_dense_matmul_avx entry al b B be C.
Proof.
  intros H. pose proof H as (H1 & H2 & H3 & H4 & H5 & H6 & H7 & H8 & HR).
  unfold crs_dense_matmul_avx. rewrite <- H1, <- H2, <- H3, <- H4, <- H5.
  do 4 match goal with |- bind ?m _ = bind ?m _ => destruct m; auto; cbn [bind] end.
  f_equal. apply for_ext. intros i s' Hi. simrd H i. apply (crs_sim_loop _ _ H); lia.
Qed.

Lemma crs_sim_transpose_core (a b : crs F) nnz rp ci v : crs_sim a b ->
  crs_transpose_core a nnz rp ci v = crs_transpose_core b nnz rp ci v.
Proof.
  intros H. pose proof H as (H1 & H2 & H3 & H4 & H5 & H6 & H7 & H8 & HR).
  unfold crs_transpose_core. rewrite <- H1, <- H2, <- H3, <- H4, <- H6.
  do 2 match goal with |- bind ?m _ = bind ?m _ => destruct m; auto; cbn [bind] end.
  match goal with |- bind ?m _ = bind ?m _ => destruct m as [[? ?]| | | |]; auto; cbn [bind] end.
  match goal with |- bind ?m _ = bind ?m _ => destruct m; auto; cbn [bind] end.
  f_equal. apply for_ext. intros i s' Hi. simrd H i. apply (crs_sim_loop _ _ H); lia.
Qed.

Lemma crs_sim_transpose_from (c a b : crs F) : crs_sim a b ->
  crs_transpose_from c a = crs_transpose_from c b.
Proof.
  intros H. pose proof H as (H1 & H2 & H3 & H4 & H5 & H6 & H7 & H8 & HR).
  unfold crs_transpose_from. rewrite <- H1, <- H2, <- H6.
  match goal with |- bind ?m _ = bind ?m _ => destruct m; auto; cbn [bind] end.
  now rewrite (crs_sim_transpose_core _ _ _ _ H).
Qed.

Lemma crs_readable_rows (a : crs F) : crs_readable a ->
  length (m_rp a) = m_row a + 1 /\ in_range (m_row a) (m_col a) (crs_entries a) /\
  length (crs_entries a) = m_nnz a.
Proof.
  intros (b & H & W). rewrite (crs_sim_entries H). destruct H as (H1 & H2 & _ & _ & _ & H6 & H7 & _).
  rewrite H2, H6. split; auto. rewrite H1. split; [now apply crs_in_range|now apply crs_entries_length].
Qed.
End CrsSim.
