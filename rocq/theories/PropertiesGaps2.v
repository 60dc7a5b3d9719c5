(** * PropertiesGaps2: more theorems added because an automatic edit of the model survived the others (seeded/LOG.jsonl).

    LinearOperator: operands that do not have the same functions, sizes, operators made from COO. *)
From Coq Require Import Ring.
From Verif Require Import Base Scalar Spec SumFacts DenseModel CooModel CrsModel CooMiscProof CrsMiscProof Observe CrsObserve SolverModel
  LinOpModel LinOpSpec LinOpProof LinOpProof2 Loops PropertiesCrs PropertiesLinOp.
Set Implicit Arguments.

Section Unmatched.
Context {F : Type} {SF : Scalar F} {SC : Schedule}.
Local Open Scope F_scope.

(** one of the operands lacks a function the other one has: the sum, the difference and the product are refused *)
Theorem C33_unmatched (w : world F) a b c A B C :
  w_op w a = Some A -> w_op w b = Some B -> w_op w c = Some C ->
  ~ (l_mv A = None <-> l_mv B = None) \/ ~ (l_rmv A = None <-> l_rmv B = None) ->
  op_matadd w a b c = Abort /\ op_matsub w a b c = Abort /\ op_vadd w a b c = Abort /\ op_matmul w a b c = Abort.
Proof.
  intros EA EB EC H.
  assert (E : same_funs A B = false).
  { unfold same_funs. destruct (l_mv A), (l_mv B), (l_rmv A), (l_rmv B); cbn; try reflexivity; exfalso;
      destruct H as [H|H]; apply H; split; congruence. }
  unfold op_matadd, op_matsub, op_vadd, op_axpy, op_matmul, get. rewrite EA, EB, EC. cbn [bind]. rewrite E. unfold assert_.
  cbn [negb orb]. repeat match goal with |- context [if ?x then _ else _] => destruct x end; cbn [bind]; auto.
Qed.

(** operands or a result with other numbers of rows AND of columns *)
Theorem C33_other_size (w : world F) a b c A B C :
  w_op w a = Some A -> w_op w b = Some B -> w_op w c = Some C ->
  (l_row A <> l_row B /\ l_col A <> l_col B) \/ (l_row A <> l_row C /\ l_col A <> l_col C) ->
  op_matadd w a b c = Abort /\ op_matsub w a b c = Abort /\ op_vadd w a b c = Abort /\ op_vsub w a b c = Abort /\
  (l_row A <> l_row C /\ l_col A <> l_col C -> op_blas_copy A C = Abort).
Proof.
  intros EA EB EC H.
  assert (S : forall X Y : linop F, l_row X <> l_row Y /\ l_col X <> l_col Y -> op_same_size X Y = false).
  { intros X Y (H1 & H2). unfold op_same_size. now rewrite (proj2 (Nat.eqb_neq _ _) H1), (proj2 (Nat.eqb_neq _ _) H2). }
  assert (E : op_same_size A B && op_same_size A C = false).
  { destruct H as [H|H]; rewrite (S _ _ H); [reflexivity|apply andb_false_r]. }
  unfold op_matadd, op_matsub, op_vadd, op_vsub, op_axpy, get. rewrite EA, EB, EC. cbn [bind]. rewrite E. cbn [assert_ bind].
  do 4 (split; auto). intros H'. unfold op_blas_copy. now rewrite (S _ _ H').
Qed.

(** blas::copy and operator= keep the functions the source does not have *)
Theorem C33_copy (A C : linop F) : l_row A = l_row C -> l_col A = l_col C ->
  exists C', op_blas_copy A C = Ok C' /\ l_row C' = l_row C /\ l_col C' = l_col C /\
    l_mv C' = (match l_mv A with Some f => Some f | None => l_mv C end) /\
    l_rmv C' = (match l_rmv A with Some f => Some f | None => l_rmv C end).
Proof.
  intros H1 H2. unfold op_blas_copy, op_same_size. rewrite H1, H2, !Nat.eqb_refl. cbn [negb andb assert_ bind].
  eexists. split; [reflexivity|]. unfold copy_funs. destruct (l_mv A), (l_rmv A); cbn; auto.
Qed.

Hypothesis Hex : exact SF.
Let Hrt : ring_theory f0 f1 fadd fmul fsub fopp (@eq F) := Hex.
Add Ring FringGap2 : Hrt.

(** operator made from a COO matrix times a Dense matrix *)
Theorem C33_op_dense_matmul_coo (w : world F) this A m c (B C : dense F) :
  w_op w this = Some A -> w_coo w m = Some c -> coo_ok c ->
  in_range (c_row c) (c_col c) (coo_entries c) -> row_sorted (coo_entries c) ->
  dense_ok B -> dense_ok C -> d_col B = d_col C -> c_col c = d_row B -> c_row c = d_row C ->
  exists w' C', op_convert_coo w this m = Ok w' /\ op_dense_matmul false w' this B C = Ok C' /\
    d_row C' = d_row C /\ d_col C' = d_col C /\
    forall i j, i < d_row C -> j < d_col C -> dense_fn C' i j = mm (c_col c) (summed (coo_entries c)) (dense_fn B) i j.
Proof.
  intros EA Em Hc HR HS WB WC HBC H1 H2. unfold op_convert_coo. rewrite (get_ok _ _ Em). cbn [bind]. rewrite (get_ok _ _ EA). cbn [bind].
  destruct (@C08_coo_crs_coo F SF SC crs_empty c c) as (a & c' & E & Ra & _ & R1 & R2 & _ & HE & HRow & _); auto.
  { unfold crs_buf, crs_empty. cbn. auto. }
  set (mat := mkDense (m_row a) (d_col B) (repeat f0 (m_row a * d_col B)) 0 (m_row a * d_col B) (m_row a * d_col B) true).
  assert (Wm : dense_ok mat) by (unfold dense_ok, mat; cbn; rewrite repeat_length; auto).
  destruct (@C18_crs_dense_exact F SF 1 a B 0 mat Hex Ra WB Wm) as (C1 & C2 & C3 & E1 & _ & _ & HF); auto; [lia|]. cbv zeta in HF.
  destruct (@C18_crs_dense_scalar F SF 1 a B 0 mat Ra WB Wm) as (C1' & E1' & W1 & S1 & S2 & _); auto; [lia|].
  rewrite E1 in E1'. inversion E1'; subst C1'. change (d_row C1 = m_row a) in S1. change (d_col C1 = d_col B) in S2.
  destruct (@dense_assign_ok F SF C C1 WC W1) as (C' & EC' & WC' & T1 & T2 & HC'); [lia|lia|].
  eexists. exists C'. split; [reflexivity|]. unfold op_dense_matmul. unfold get at 1. rewrite w_op_set. cbn [bind l_in l_out l_col l_row l_mm].
  rewrite H1, H2, HBC, !Nat.eqb_refl. cbn [assert_ bind mcall]. rewrite (get_ok (w_coo _) m (a:=c)) by exact Em. cbn [bind]. rewrite E. cbn [bind].
  rewrite dense_new_ok. cbn [bind]. fold mat. rewrite E1. cbn [bind].
  split; [exact EC'|]. split; auto. split; auto. intros i j Hi Hj. rewrite HC' by auto. rewrite (proj1 (HF i j ltac:(lia) ltac:(lia))).
  rewrite R2, H1. rewrite HE. ring.
Qed.
End Unmatched.

(** the hypotheses of [C33_unmatched], [C33_other_size] and [C33_op_dense_matmul_coo] are met *)
Theorem C33_gaps_example :
  let f := Some (KUser (fun x : list Z => Ok x)) in
  let w := mkW (fun i => nth i [Some (op_new 2 2 f None None None); Some (op_new 2 2 f f None None); Some (op_new 3 3 f None None None)] None)
               (fun _ => None) (fun _ => Some (mkCoo 2 2 [0;0;1]%nat [0;1;1]%nat [1;2;3]%Z 3 3 true)) (fun _ => None) (fun _ => None) in
  @op_matadd Z Zscalar w 0 1 0 = Abort /\ @op_matadd Z Zscalar w 0 2 0 = Abort /\
  exists w', @op_convert_coo Z w 0 0 = Ok w' /\
    @op_dense_matmul Z Zscalar one_thread false w' 0 (D 2 1 [10;100]%Z) (D 2 1 [0;0]%Z) = Ok (D 2 1 [210;300]%Z).
Proof. cbv zeta. split; [vm_compute; reflexivity|]. split; [vm_compute; reflexivity|]. eexists. split; vm_compute; reflexivity. Qed.
