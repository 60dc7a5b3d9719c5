(** * PropertiesVendor: C111, sparse products of the MKL and NVIDIA builds. *)
From Coq Require Import ZArith.
From Verif Require Import Base Scalar Spec Loops SumFacts Mem DenseModel Observe CooModel CrsModel CrsObserve CrsBlasProof CrsMatmulProof
  CrsSimProof CrsMiscProof PropertiesCrs VendorModel.
Set Implicit Arguments.
Local Open Scope nat_scope.

(** one of the two vendor builds *)
Definition vendor_mv_core {F} {SF : Scalar F} core : Prop := core = @mkl_matvec_core F SF \/ core = @cuda_matvec_core F SF.
Definition vendor_mm_core {F} {SF : Scalar F} core : Prop := core = @mkl_matmul_core F SF \/ core = @cuda_matmul_core F SF.

Section Vendor.
Context {F : Type} {SF : Scalar F}.

Lemma csr_valid_ok (A : crs F) : crs_ok A -> csr_valid A = true.
Proof.
  intros (H1 & H2 & H3 & H4 & H5 & H6 & H7 & H8). unfold csr_valid. unfold rpn, cin in *.
  rewrite H1, H2, H4, !Nat.eqb_refl. cbn [andb].
  apply andb_true_intro. split; [apply andb_true_intro; split; [apply andb_true_intro; split|]|].
  - apply forallb_forall. intros i Hi. apply in_seq in Hi. apply Nat.leb_le. apply H3. lia.
  - apply Nat.leb_le. lia.
  - apply Nat.leb_le. lia.
  - apply forallb_forall. intros k Hk. apply in_seq in Hk. apply Nat.ltb_lt. apply H6. lia.
Qed.

(** y := a*op(A)*x + b*y for every valid matrix *)
Theorem C111_matvec core (a b : F) (A : crs F) (x y : list F) (h : nat) :
  vendor_mv_core core -> exact SF -> crs_ok A ->
  (length x = m_col A -> length y = m_row A ->
   exists y', core a A x b y false h = Ok (y', h + 1) /\ length y' = m_row A /\
     forall i, i < m_row A ->
       fn y' i = fadd (fmul a (mv (m_col A) (summed (crs_entries A)) (fn x) i)) (fmul b (fn y i))) /\
  (length x = m_row A -> length y = m_col A ->
   exists y', core a A x b y true h = Ok (y', h + 1) /\ length y' = m_col A /\
     forall j, j < m_col A ->
       fn y' j = fadd (fmul a (mv (m_row A) (fun j i => summed (crs_entries A) i j) (fn x) j)) (fmul b (fn y j))).
Proof.
  intros Hc Hex W. pose proof (csr_valid_ok W) as V.
  split; intros Hx Hy.
  - assert (E : core a A x b y false h = Ok (map (fun i => fadd (fmul a (row_dot (crs_row A i) x)) (fmul b (nth i y f0))) (seq 0 (m_row A)), h + 1)).
    { destruct Hc as [-> | ->]; unfold mkl_matvec_core, cuda_matvec_core, mv_checks, vendor_mv; rewrite V, Hx, Hy, !Nat.eqb_refl;
        cbn [assert_ bind]; try replace (h + 1 + 1 + 2 + 1 - 1 - 2 - 1) with (h + 1) by lia; reflexivity. }
    rewrite E. eexists. split; [reflexivity|]. rewrite map_length, seq_length. split; auto.
    intros i Hi. unfold fn at 1. rewrite nth_map_seq by auto. cbn [Nat.add]. now rewrite (row_dot_mv Hex).
  - assert (E : core a A x b y true h = Ok (map (fun i => fadd (fmul a (row_dot (ent_col (crs_entries A) i) x)) (fmul b (nth i y f0))) (seq 0 (m_col A)), h + 1)).
    { destruct Hc as [-> | ->]; unfold mkl_matvec_core, cuda_matvec_core, mv_checks, vendor_mv; rewrite V, Hx, Hy, !Nat.eqb_refl;
        cbn [assert_ bind]; try replace (h + 1 + 1 + 2 + 1 - 1 - 2 - 1) with (h + 1) by lia; reflexivity. }
    rewrite E. eexists. split; [reflexivity|]. rewrite map_length, seq_length. split; auto.
    intros i Hi. unfold fn at 1. rewrite nth_map_seq by auto. cbn [Nat.add]. now rewrite (col_dot_mv Hex).
Qed.

Lemma list_fn_ext (l l' : list F) n : length l = n -> length l' = n -> (forall i, i < n -> fn l i = fn l' i) -> l = l'.
Proof. intros H H' G. apply (@list_ext F f0); [congruence|]. rewrite H. exact G. Qed.

(** matvec(A, x, y) and matvec_T(A, x, y): the same vector as the plain build *)
Theorem C111_same_matvec core (A : crs F) (x y : list F) (h : nat) :
  vendor_mv_core core -> exact SF -> crs_ok A ->
  (length x = m_col A -> length y = m_row A ->
   exists y', crs_matvec A x y = Ok y' /\ vendor_matvec core A x y h = Ok (y', h + 1)) /\
  (length x = m_row A -> length y = m_col A ->
   exists y', crs_matvec_T A x y = Ok y' /\ vendor_matvec_T core A x y h = Ok (y', h + 1)).
Proof.
  intros Hc Hex W. pose proof (crs_ok_readable W) as R. split; intros Hx Hy.
  - destruct (C11_crs_matvec_exact A x y Hex R Hx Hy) as (y1 & E1 & L1 & G1).
    destruct (proj1 (C111_matvec f1 f0 x y h Hc Hex W) Hx Hy) as (y2 & E2 & L2 & G2).
    exists y1. split; auto. unfold vendor_matvec. rewrite E2. do 3 f_equal.
    apply (list_fn_ext _ _ L2 L1). intros i Hi. rewrite G1, G2 by auto. apply ex_one_zero. exact Hex.
  - destruct (C12_crs_matvec_T_exact A x y Hex R Hx Hy) as (y1 & E1 & L1 & G1).
    destruct (proj2 (C111_matvec f1 f0 x y h Hc Hex W) Hx Hy) as (y2 & E2 & L2 & G2).
    exists y1. split; auto. unfold vendor_matvec_T. rewrite E2. do 3 f_equal.
    apply (list_fn_ext _ _ L2 L1). intros i Hi. rewrite G1, G2 by auto. apply ex_one_zero. exact Hex.
Qed.

(** wrong sizes stop, as in the plain build *)
Theorem C111_sizes core mcore (a b : F) (A : crs F) (x y : list F) (B C : dense F) (h : nat) :
  vendor_mv_core core -> vendor_mm_core mcore ->
  (length x <> m_col A \/ length y <> m_row A -> core a A x b y false h = Abort) /\
  (length x <> m_row A \/ length y <> m_col A -> core a A x b y true h = Abort) /\
  (m_col A <> d_row B \/ m_row A <> d_row C \/ d_col B <> d_col C -> mcore a A B b C h = Abort).
Proof.
  intros Hc Hm. split; [|split]; intros H.
  - destruct Hc as [-> | ->]; unfold mkl_matvec_core, cuda_matvec_core, mv_checks;
      destruct (Nat.eqb_spec (m_row A) (length y)); destruct (Nat.eqb_spec (m_col A) (length x)); cbn [assert_ bind]; auto; lia.
  - destruct Hc as [-> | ->]; unfold mkl_matvec_core, cuda_matvec_core, mv_checks;
      destruct (Nat.eqb_spec (m_row A) (length x)); destruct (Nat.eqb_spec (m_col A) (length y)); cbn [assert_ bind]; auto; lia.
  - destruct Hm as [-> | ->]; unfold mkl_matmul_core, cuda_matmul_core, mm_checks;
      destruct (Nat.eqb_spec (m_col A) (d_row B)); destruct (Nat.eqb_spec (m_row A) (d_row C));
      destruct (Nat.eqb_spec (d_col B) (d_col C)); cbn [assert_ bind]; auto; lia.
Qed.

Lemma vendor_mm_ok (a : F) (A : crs F) (B : dense F) (b : F) (C : dense F) :
  crs_ok A -> dense_ok B -> dense_ok C -> m_col A = d_row B -> m_row A = d_row C -> d_col B = d_col C ->
  exists C', vendor_mm a A B b C = Ok C' /\ dense_ok C' /\ d_row C' = d_row C /\ d_col C' = d_col C /\ same_outside C C' /\
    forall i j, i < m_row A -> j < d_col B ->
      dense_fn C' i j = fadd (fmul a (row_sum f0 (fun v => v) (crs_row A i) B j)) (fmul b (dense_fn C i j)).
Proof.
  intros W (B1 & B2 & B3) (C1 & C2 & C3) HK HM HN. unfold vendor_mm. rewrite (csr_valid_ok W).
  set (N := d_col B) in *. set (M := m_row A) in *.
  destruct (@grid_loop F f0 M N (fun i j => d_first C + (i * N + j))
     (fun i j old => fadd (fmul a (row_sum f0 (fun v => v) (crs_row A i) B j)) (fmul b old))
     (fun i j v => c <- rd v (d_first C + (i * N + j)) ;;
        wr v (d_first C + (i * N + j)) (fadd (fmul a (row_sum f0 (fun v => v) (crs_row A i) B j)) (fmul b c)))
     (d_val C)) as (v & E & HL & H1 & H2).
  - intros i j Hi Hj. nia.
  - intros i j i' j' Hi Hj Hi' Hj' He. assert (i * N + j = i' * N + j') by lia.
    assert (i = i') by nia. subst. lia.
  - intros i j w Hi Hj Hw. assert (d_first C + (i * N + j) < length w) by (rewrite Hw; nia).
    rewrite (@rd_lt F w _ f0) by auto. cbn [bind]. now rewrite wr_lt by auto.
  - rewrite E. cbn [bind]. exists (d_set_val C v). split; auto.
    split; [unfold dense_ok; destruct C; cbn in *; repeat split; auto; lia|].
    split; [destruct C; reflexivity|]. split; [destruct C; reflexivity|]. split.
    + split; [destruct C; cbn in *; auto|]. replace (d_val (d_set_val C v)) with v by (destruct C; reflexivity).
      intros q Hq. apply H2. intros i j Hi Hj He. rewrite C2, <- HM, <- HN in Hq. nia.
    + intros i j Hi Hj. unfold dense_fn at 1. replace (d_val (d_set_val C v)) with v by (destruct C; reflexivity).
      replace (d_first (d_set_val C v)) with (d_first C) by (destruct C; reflexivity).
      replace (d_col (d_set_val C v)) with (d_col C) by (destruct C; reflexivity). rewrite <- HN.
      rewrite (Nat.mul_comm N i). rewrite (H1 i j) by auto. unfold dense_fn at 1. rewrite <- HN, (Nat.mul_comm N i). reflexivity.
Qed.

(** matmul(a, A, B, b, C): the same matrix as the plain scalar build, a*A*B + b*C *)
Theorem C111_matmul mcore (a : F) (A : crs F) (B : dense F) (b : F) (C : dense F) (h : nat) :
  vendor_mm_core mcore -> exact SF -> crs_ok A -> dense_ok B -> dense_ok C ->
  m_col A = d_row B -> m_row A = d_row C -> d_col B = d_col C ->
  exists C' C'' h', mcore a A B b C h = Ok (C', h') /\ crs_dense_matmul_scalar a A B b C = Ok C'' /\
    h <= h' <= h + 1 /\ (mcore = mkl_matmul_core -> h' = h) /\
    dense_ok C' /\ d_row C' = d_row C /\ d_col C' = d_col C /\ same_outside C C' /\
    forall i j, i < m_row A -> j < d_col B ->
      dense_fn C' i j = dense_fn C'' i j /\
      dense_fn C' i j = fadd (fmul a (mm (m_col A) (summed (crs_entries A)) (dense_fn B) i j)) (fmul b (dense_fn C i j)).
Proof.
  intros Hm Hex W WB WC E1 E2 E3.
  destruct (@vendor_mm_ok a A B b C W WB WC E1 E2 E3) as (C' & E & W' & R1 & R2 & R3 & G).
  destruct (C18_crs_dense_scalar a A B b C (crs_ok_readable W) WB WC E1 E2 E3) as (C'' & E'' & _ & _ & _ & _ & G'').
  exists C', C''.
  assert (K : exists h', mcore a A B b C h = Ok (C', h') /\ h <= h' <= h + 1 /\ (mcore = mkl_matmul_core -> h' = h)).
  { destruct Hm as [-> | ->].
    - exists h. unfold mkl_matmul_core, mm_checks. rewrite E1, E2, E3, !Nat.eqb_refl. cbn [assert_ bind]. rewrite E. cbn [bind].
      split; auto. split; [lia|auto].
    - exists (h + 1 + 3 + 1 - 3 - 1). unfold cuda_matmul_core, mm_checks. rewrite E1, E2, E3, !Nat.eqb_refl. cbn [assert_ bind].
      rewrite E. cbn [bind]. split; auto. split; [lia|]. intros HE. exfalso.
      pose proof (f_equal (fun f => f a A B b C h) HE) as X. cbv beta in X.
      unfold mkl_matmul_core, mm_checks in X. rewrite E1, E2, E3, !Nat.eqb_refl in X. cbn [assert_ bind] in X.
      rewrite E in X. cbn [bind] in X. injection X as X. lia. }
  destruct K as (h' & K1 & K2 & K3). exists h'. do 8 (split; auto).
  intros i j Hi Hj. rewrite G, G'' by auto. split; auto. now rewrite (row_sum_mm Hex).
Qed.
End Vendor.
Print Assumptions C111_matvec.
Print Assumptions C111_same_matvec.
Print Assumptions C111_sizes.
Print Assumptions C111_matmul.

(** FALSE: matvec(a, A, x, b, y) gives different vectors in the two builds (the plain one ignores a and b) *)
Theorem C111_scaled_matvec_refuted : exists A : crs Z,
  @crs_of_arrays Z Zscalar one_thread 1 1 1 [0;1] [0] [1%Z] = Ok A /\ crs_ok A /\
  crs_matvec_ab 2%Z A [1%Z] 1%Z [1%Z] = Ok [1%Z] /\
  mkl_matvec_core 2%Z A [1%Z] 1%Z [1%Z] false 0 = Ok ([3%Z], 1) /\ cuda_matvec_core 2%Z A [1%Z] 1%Z [1%Z] false 0 = Ok ([3%Z], 1).
Proof.
  eexists. split; [vm_compute; reflexivity|].
  split; [unfold crs_ok, rpn, cin; cbn; repeat split; auto; try lia; intros [|i] Hi; cbn; lia|].
  repeat split; vm_compute; reflexivity.
Qed.
Print Assumptions C111_scaled_matvec_refuted.

(** FALSE: a matrix converted from a COO whose last row is empty is multiplied correctly by the plain build
    (C11), but violates the precondition of the vendor libraries *)
Theorem C111_from_coo_refuted : exists (c : coo Z) (A : crs Z),
  coo_inserts (coo_new 2 2) [(0,0,5%Z)] = Ok c /\ @crs_convert_coo Z Zscalar one_thread crs_empty c = Ok A /\
  crs_readable A /\ crs_matvec A [3;4]%Z [0;0]%Z = Ok [15;0]%Z /\
  mkl_matvec_core 1%Z A [3;4]%Z 0%Z [0;0]%Z false 0 = UB /\ cuda_matvec_core 1%Z A [3;4]%Z 0%Z [0;0]%Z false 0 = UB.
Proof.
  do 2 eexists. split; [vm_compute; reflexivity|]. split; [vm_compute; reflexivity|]. split.
  { exists (@mkCrs Z 2 2 [0;1;1] [0] [5%Z] 0 1 1 true 0%N). split.
    - unfold crs_sim, rpn. cbn. repeat split; auto. intros [|[|i]] Hi; cbn; lia.
    - unfold crs_ok, rpn, cin. cbn. repeat split; auto; try lia; intros [|[|i]] Hi; cbn; lia. }
  repeat split; vm_compute; reflexivity.
Qed.
Print Assumptions C111_from_coo_refuted.

(** FALSE: library objects are not released: n products leave n more of them alive, for every matrix *)
Theorem C111_handles_refuted {F} {SF : Scalar F} core (A : crs F) (x y : list F) (h n : nat) :
  vendor_mv_core core -> exact SF -> crs_ok A -> length x = m_col A -> length y = m_row A ->
  exists y', vendor_repeat core n A x y h = Ok (y', h + n).
Proof.
  intros Hc Hex W Hx. revert y h. induction n as [|n IH]; intros y h Hy; cbn [vendor_repeat].
  - exists y. do 2 f_equal. lia.
  - destruct (proj1 (C111_matvec f1 f0 x y h Hc Hex W) Hx Hy) as (y2 & E2 & L2 & _).
    unfold vendor_matvec. rewrite E2. cbn [bind]. destruct (IH y2 (h + 1) L2) as (y' & E). exists y'. rewrite E. do 2 f_equal. lia.
Qed.
Print Assumptions C111_handles_refuted.

(** the hypotheses are met *)
Example C111_example : exists A : crs Z,
  @crs_of_arrays Z Zscalar one_thread 2 3 3 [0;2;3] [0;2;1] [1;2;3]%Z = Ok A /\ crs_ok A /\ exact Zscalar /\
  mkl_matvec_core 2%Z A [10;20;30]%Z 1%Z [7;7]%Z false 0 = Ok ([147;127]%Z, 1) /\
  cuda_matvec_core 1%Z A [10;20]%Z 0%Z [7;7;7]%Z true 4 = Ok ([10;60;20]%Z, 5).
Proof.
  eexists. split; [vm_compute; reflexivity|].
  split; [unfold crs_ok, rpn, cin; cbn; repeat split; auto; intros i Hi; destruct i as [|[|[|i]]]; cbn; lia|].
  split; [apply Z_exact|]. split; vm_compute; reflexivity.
Qed.
