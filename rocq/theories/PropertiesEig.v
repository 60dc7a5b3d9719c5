(** * PropertiesEig: C57, the functions that give exact eigenvalues of the generated matrices.

    Over the real numbers, with the mathematical cosine and pi (EigModel). *)
From Coq Require Import ZArith Reals Lra Sorting.Sorted.
From Verif Require Import Base Scalar Spec DenseModel CooModel Observe GenModel GenProof PropertiesGen EigModel EigProof.
Set Implicit Arguments.
Local Existing Instance Rscalar.
Local Existing Instance R_FromInt.
Local Open Scope R_scope.

(** ** specification *)

(** the call returned an M x M matrix whose elements, read by at(), are A *)
Definition elements (r : res (coo R)) (M : nat) (A : nat -> nat -> R) : Prop :=
  exists c, r = Ok c /\ c_row c = M /\ c_col c = M /\
    forall i j, (i < M)%nat -> (j < M)%nat -> coo_at c i j = Ok (A i j).

(** A v = lam v for some v other than 0 *)
Definition eigenvalue (M : nat) (A : nat -> nat -> R) (lam : R) : Prop :=
  exists v : nat -> R, (exists i, (i < M)%nat /\ v i <> 0) /\ forall i, (i < M)%nat -> mv M A v i = lam * v i.
(** A v = lam B v for some v other than 0 *)
Definition gen_eigenvalue (M : nat) (A B : nat -> nat -> R) (lam : R) : Prop :=
  exists v : nat -> R, (exists i, (i < M)%nat /\ v i <> 0) /\ forall i, (i < M)%nat -> mv M A v i = lam * mv M B v i.
(** all the values with property P, in increasing order, are [ls], and number N of them (from 0) is lam *)
Definition nth_smallest (P : R -> Prop) (N : nat) (lam : R) : Prop :=
  exists ls, StronglySorted Rlt ls /\ (forall mu, P mu <-> In mu ls) /\ nth_error ls N = Some lam.

(** ** proofs *)
Lemma is_matrix_elements r M P (A : nat -> nat -> R) : is_matrix r M M P A -> elements r M A.
Proof. intros (c & E & W & Hr & Hc & _ & _ & HA). exists c. auto. Qed.

Lemma sorted_map (f : nat -> R) a n : (forall k k', (k < k')%nat -> (k' < a + n)%nat -> f k < f k') ->
  StronglySorted Rlt (map f (seq a n)).
Proof.
  revert a. induction n as [|n IH]; intros a H; cbn [seq map]; constructor.
  - apply IH. intros k k' H1 H2. apply H; lia.
  - apply Forall_forall. intros x Hx. apply in_map_iff in Hx. destruct Hx as (k & <- & Hk). apply in_seq in Hk. apply H; lia.
Qed.

Lemma nth_smallest_intro M (A : nat -> nat -> R) (f : nat -> R) N : (N < M)%nat ->
  (forall i j, (i < M)%nat -> (j < M)%nat -> A i j = A j i) ->
  (forall k, (k < M)%nat -> eigenvalue M A (f k)) -> (forall k k', (k < k')%nat -> (k' < M)%nat -> f k < f k') ->
  nth_smallest (eigenvalue M A) N (f N).
Proof.
  intros HN Hs He Hm. exists (map f (seq 0 M)). split; [apply sorted_map; auto|]. split.
  - intros mu. split.
    + intros H. destruct (@eigen_at_most M A f Hs He Hm mu H) as (k & Hk & ->). apply in_map. apply in_seq. lia.
    + intros H. apply in_map_iff in H. destruct H as (k & <- & Hk). apply in_seq in Hk. apply He. lia.
  - rewrite nth_error_map. rewrite (nth_error_nth' _ 0%nat) by (rewrite seq_length; auto). rewrite seq_nth by auto. reflexivity.
Qed.

Lemma tri_th M a b i j : (i < M)%nat -> (j < M)%nat -> tridiagonal a b i j = th M a b 0 i j.
Proof.
  intros _ _. unfold tridiagonal, th, dst, dist. destruct ((i - j) + (j - i))%nat as [|[|[|d]]]; auto.
  rewrite Rminus_0_r. now destruct ((i =? 0) || (i =? M - 1))%nat%bool.
Qed.
Lemma elements_ext r M (A A' : nat -> nat -> R) : elements r M A ->
  (forall i j, (i < M)%nat -> (j < M)%nat -> A i j = A' i j) -> elements r M A'.
Proof. intros (c & E & Hr & Hc & HA) H. exists c. repeat (split; auto). intros i j Hi Hj. rewrite HA by auto. now rewrite H. Qed.

(** ** tridiagonal_toeplitz_matrix_eigenvalue(M, N, a, b) is the Nth smallest eigenvalue (N from 0) of the matrix
    that tridiagonal_toeplitz_matrix(M, a, b) returns; for b = 0 that matrix has the one eigenvalue a.
    (M = 1 is excluded because the generator aborts there, C32_tridiagonal_small_refuted.) *)
Theorem C57_tridiagonal (M N : nat) (a b : R) : (2 <= M)%nat -> (N < M)%nat -> exists A,
  elements (tridiagonal_toeplitz_matrix M a b) M A /\
  (b <> 0 -> nth_smallest (eigenvalue M A) N (tridiagonal_toeplitz_matrix_eigenvalue (Z.of_nat M) (Z.of_nat N) a b)) /\
  (b = 0 -> nth_smallest (eigenvalue M A) 0 (tridiagonal_toeplitz_matrix_eigenvalue (Z.of_nat M) (Z.of_nat N) a b) /\
     forall mu, eigenvalue M A mu <-> mu = tridiagonal_toeplitz_matrix_eigenvalue (Z.of_nat M) (Z.of_nat N) a b).
Proof.
  intros HM HN. exists (th M a b 0). split.
  { apply (@elements_ext _ _ (tridiagonal a b)); [|intros; apply tri_th; auto].
    eapply is_matrix_elements. apply C32_tridiagonal_partial. auto. }
  split.
  - intros Hb. apply (@nth_smallest_intro M (th M a b 0) (fun n => tridiagonal_toeplitz_matrix_eigenvalue (Z.of_nat M) (Z.of_nat n) a b)); auto.
    + intros. apply th_sym; auto.
    + intros k Hk. apply tri_is_eigen; auto. lia.
    + intros k k' H1 H2. apply tri_eig_mono; auto; lia.
  - intros ->. assert (E : tridiagonal_toeplitz_matrix_eigenvalue (Z.of_nat M) (Z.of_nat N) a 0 = a).
    { unfold tridiagonal_toeplitz_matrix_eigenvalue. rewrite Rabs_R0. ring. }
    assert (I : forall mu, eigenvalue M (th M a 0 0) mu <-> mu = a).
    { intros mu. split.
      - intros (v & (i & Hi & Hvi) & Hv). specialize (Hv i Hi).
        assert (D : mv M (th M a 0 0) v i = a * v i).
        { unfold mv. rewrite (@SumFacts.sum_ext R Rscalar M _ (fun j => if (j =? i)%nat then a * v i else 0)).
          - rewrite sum_delta. destruct (Nat.ltb_spec i M); [auto|lia].
          - intros j Hj. rewrite <- (@tri_th M a 0 i j) by auto. unfold tridiagonal, dist. rs.
            destruct (Nat.eqb_spec j i) as [->|]; [now rewrite Nat.sub_diag|].
            destruct (i - j + (j - i))%nat as [|[|d]] eqn:D; [lia|ring|ring]. }
        rewrite D in Hv. apply (Rmult_eq_reg_r (v i)); auto.
      - intros ->. rewrite <- E at 2. apply tri_is_eigen; auto. lia. }
    rewrite E. split; auto. exists [a]. split; [repeat constructor|]. split; [|reflexivity].
    intros mu. rewrite I. cbn. intuition.
Qed.
Print Assumptions C57_tridiagonal.

Theorem C57_laplacian_1D (M N : nat) : (2 <= M)%nat -> (N < M)%nat -> exists A,
  elements (laplacian_matrix_1D M) M A /\
  nth_smallest (eigenvalue M A) N (laplacian_matrix_1D_eigenvalue (Z.of_nat M) (Z.of_nat N)).
Proof.
  intros HM HN. destruct (@C57_tridiagonal M N 2 (-1) HM HN) as (A & E & H & _). exists A. split; [exact E|].
  apply H. apply Rlt_not_eq. lra.
Qed.
Print Assumptions C57_laplacian_1D.

(** ** toeplitz_plus_hankel_matrix_eigenvalue: for N = 0 .. M-1 the values are exactly the generalized eigenvalues
    of the two generated matrices, whenever none of the denominators is 0 (B is then regular).
    Missing: the order (see the refutation) and M < 4, where the generator aborts (C32). *)
Lemma th_toeplitz_hankel M a0 a1 a2 i j : (i < M)%nat -> (j < M)%nat ->
  toeplitz_hankel M a0 a1 a2 i j = th M a0 a1 a2 i j.
Proof.
  intros Hi Hj. unfold toeplitz_hankel, th, dst, dist. destruct ((i - j) + (j - i))%nat as [|[|[|d]]] eqn:E; auto.
Qed.

Definition denominator (M N : nat) (b0 b1 b2 : R) : R :=
  b0 + 2 * b1 * cos (INR (N + 1) * PI / INR (M + 1)) + 2 * b2 * cos (2 * (INR (N + 1) * PI / INR (M + 1))).

Lemma ang_INR M N : INR (N + 1) * PI / INR (M + 1) = ang (Z.of_nat M) (Z.of_nat N).
Proof. unfold ang. rewrite !INR_IZR_INZ, !Nat2Z.inj_add. cbn [Z.of_nat Pos.of_succ_nat]. f_equal. ring. Qed.

Lemma value_penta (M N : nat) a0 a1 a2 b0 b1 b2 :
  toeplitz_plus_hankel_matrix_eigenvalue (Z.of_nat M) (Z.of_nat N) a0 a1 a2 b0 b1 b2 =
  penta_value M N a0 a1 a2 / penta_value M N b0 b1 b2.
Proof.
  unfold toeplitz_plus_hankel_matrix_eigenvalue, penta_value.
  replace (PI * 1 * IZR (Z.of_nat N + 1) / IZR (Z.of_nat M + 1)) with (ang (Z.of_nat M) (Z.of_nat N)) by (unfold ang; now rewrite Rmult_1_r).
  replace (PI * 2 * IZR (Z.of_nat N + 1) / IZR (Z.of_nat M + 1)) with (2 * ang (Z.of_nat M) (Z.of_nat N)) by (unfold ang, Rdiv; ring).
  reflexivity.
Qed.

Theorem C57_toeplitz_plus_hankel_partial (M : nat) (a0 a1 a2 b0 b1 b2 : R) : (4 <= M)%nat ->
  (forall N, (N < M)%nat -> denominator M N b0 b1 b2 <> 0) -> exists A B,
  elements (toeplitz_plus_hankel_matrix M a0 a1 a2) M A /\ elements (toeplitz_plus_hankel_matrix M b0 b1 b2) M B /\
  forall mu, gen_eigenvalue M A B mu <->
    exists N, (N < M)%nat /\ mu = toeplitz_plus_hankel_matrix_eigenvalue (Z.of_nat M) (Z.of_nat N) a0 a1 a2 b0 b1 b2.
Proof.
  intros HM HD. exists (th M a0 a1 a2), (th M b0 b1 b2). split; [|split].
  - apply (@elements_ext _ _ (toeplitz_hankel M a0 a1 a2)); [|intros; apply th_toeplitz_hankel; auto].
    eapply is_matrix_elements. apply C32_toeplitz_plus_hankel_partial. auto.
  - apply (@elements_ext _ _ (toeplitz_hankel M b0 b1 b2)); [|intros; apply th_toeplitz_hankel; auto].
    eapply is_matrix_elements. apply C32_toeplitz_plus_hankel_partial. auto.
  - intros mu. unfold gen_eigenvalue. fold (gen_eigen M (th M a0 a1 a2) (th M b0 b1 b2) mu).
    rewrite gen_eigen_iff; [|lia|].
    + split; intros (N & HN & E); exists N; (split; [auto|]); rewrite E, value_penta; auto.
    + intros N HN. specialize (HD N HN). unfold denominator in HD. rewrite ang_INR in HD. unfold penta_value.
      intros E. apply HD. rewrite <- E. ring.
Qed.
Print Assumptions C57_toeplitz_plus_hankel_partial.

(** Refuted: "Nth smallest".  With A = (0, 1, 0) and B the identity, argument 0 gives a larger eigenvalue than
    argument 1, for every M. *)
Theorem C57_toeplitz_plus_hankel_order_refuted (M : nat) : (4 <= M)%nat ->
  toeplitz_plus_hankel_matrix_eigenvalue (Z.of_nat M) 1 0 1 0 1 0 0 < toeplitz_plus_hankel_matrix_eigenvalue (Z.of_nat M) 0 0 1 0 1 0 0 /\
  exists A B, elements (toeplitz_plus_hankel_matrix M 0 1 0) M A /\ elements (toeplitz_plus_hankel_matrix M 1 0 0) M B /\
    gen_eigenvalue M A B (toeplitz_plus_hankel_matrix_eigenvalue (Z.of_nat M) 1 0 1 0 1 0 0) /\
    ~ nth_smallest (gen_eigenvalue M A B) 0 (toeplitz_plus_hankel_matrix_eigenvalue (Z.of_nat M) 0 0 1 0 1 0 0).
Proof.
  intros HM.
  assert (L : toeplitz_plus_hankel_matrix_eigenvalue (Z.of_nat M) 1 0 1 0 1 0 0 < toeplitz_plus_hankel_matrix_eigenvalue (Z.of_nat M) 0 0 1 0 1 0 0).
  { assert (E0 := @value_penta M 0 0 1 0 1 0 0). assert (E1 := @value_penta M 1 0 1 0 1 0 0).
    change (Z.of_nat 0) with 0%Z in E0. change (Z.of_nat 1) with 1%Z in E1. rewrite E0, E1. unfold penta_value.
    change (Z.of_nat 0) with 0%Z. change (Z.of_nat 1) with 1%Z.
    destruct (@ang_range (Z.of_nat M) 0) as [A1 A2]; [lia|]. destruct (@ang_range (Z.of_nat M) 1) as [B1 B2]; [lia|].
    assert (ang (Z.of_nat M) 0 < ang (Z.of_nat M) 1) by (apply ang_mono; lia).
    assert (cos (ang (Z.of_nat M) 1) < cos (ang (Z.of_nat M) 0)) by (apply cos_decreasing_1; lra).
    assert (V : forall x y, (0 + 2 * (1 * x + 0 * y)) / (1 + 2 * (0 * x + 0 * y)) = 2 * x).
    { intros x y. replace (1 + 2 * (0 * x + 0 * y)) with 1 by ring. field. }
    rewrite !V. lra. }
  split; auto.
  destruct (@C57_toeplitz_plus_hankel_partial M 0 1 0 1 0 0 HM) as (A & B & EA & EB & H).
  { intros N HN. unfold denominator. apply Rgt_not_eq. lra. }
  assert (G : gen_eigenvalue M A B (toeplitz_plus_hankel_matrix_eigenvalue (Z.of_nat M) 1 0 1 0 1 0 0)).
  { apply H. exists 1%nat. split; [lia|reflexivity]. }
  exists A, B. split; [auto|]. split; [auto|]. split; [auto|].
  intros (ls & HS & HI & HN). apply HI in G. destruct ls as [|x ls]; [discriminate|]. injection HN as ->.
  inversion HS as [|? ? _ HF]; subst. destruct G as [E|G]; [lra|]. rewrite Forall_forall in HF. specialize (HF _ G). lra.
Qed.
Print Assumptions C57_toeplitz_plus_hankel_order_refuted.

(** ** frank_matrix_eigenvalue.  Refuted: whether N counts from 0 or from 1, N = 1 is a legitimate argument (for
    M >= 2), but the value returned, 1/4, is an eigenvalue of no Frank matrix. *)
Lemma frank_elements M : elements (frank_matrix M) M (fr M).
Proof. eapply is_matrix_elements. exact (C32_frank (F:=R) M). Qed.

Theorem C57_frank_refuted (M : nat) : exists A, elements (frank_matrix M) M A /\
  ~ eigenvalue M A (frank_matrix_eigenvalue (Z.of_nat M) 1).
Proof.
  exists (fr M). split; [apply frank_elements|]. rewrite frank_one by lia. apply quarter_not_eigen.
Qed.
Print Assumptions C57_frank_refuted.

(** What holds: the function's argument is off by two from the 0-based count *)
Theorem C57_frank_shifted_partial (M N : nat) : (N < M)%nat -> exists A, elements (frank_matrix M) M A /\
  nth_smallest (eigenvalue M A) N (frank_matrix_eigenvalue (Z.of_nat M) (Z.of_nat N + 2)).
Proof.
  intros HN. exists (fr M). split; [apply frank_elements|].
  apply (@nth_smallest_intro M (fr M) (fun n => frank_matrix_eigenvalue (Z.of_nat M) (Z.of_nat n + 2))); auto.
  - intros. apply fr_sym.
  - intros k Hk. rewrite frank_fang. apply fr_is_eigen. lia.
  - intros k k' H1 H2. apply frank_mono; auto.
Qed.
Print Assumptions C57_frank_shifted_partial.

(** ** concrete cases: the hypotheses are met *)
Example C57_tridiagonal_case : exists A, elements (tridiagonal_toeplitz_matrix 3 2 (-1)) 3 A /\
  nth_smallest (eigenvalue 3 A) 1 2.
Proof.
  destruct (@C57_tridiagonal 3 1 2 (-1)) as (A & E & H & _); [lia|lia|]. exists A. split; [exact E|].
  assert (V : tridiagonal_toeplitz_matrix_eigenvalue (Z.of_nat 3) (Z.of_nat 1) 2 (-1) = 2).
  { unfold tridiagonal_toeplitz_matrix_eigenvalue. change (Z.of_nat 1 + 1)%Z with 2%Z. change (Z.of_nat 3 + 1)%Z with 4%Z.
    replace (PI * 2 / 4) with (PI / 2) by field. rewrite cos_PI2. ring. }
  rewrite V in H. apply H. apply Rlt_not_eq. lra.
Qed.
Example C57_frank_case : frank_matrix_eigenvalue 1 2 = 1.
Proof.
  unfold frank_matrix_eigenvalue. cbn [Z.sub Z.add Z.mul Z.opp Pos.mul Pos.add Z.pos_sub Pos.pred_double Pos.succ].
  replace (PI * 1 / 3) with (PI / 3) by field. rewrite cos_PI3. field.
Qed.
Example C57_toeplitz_plus_hankel_case : forall N, (N < 4)%nat -> denominator 4 N 3 1 0 <> 0.
Proof.
  intros N HN. unfold denominator. destruct (COS_bound (INR (N + 1) * PI / INR (4 + 1))). apply Rgt_not_eq. lra.
Qed.
