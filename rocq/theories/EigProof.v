(** * EigProof: eigenvectors of the generated matrices *)
From Coq Require Import ZArith Reals RealField Lra.
From Verif Require Import Base Scalar Spec SumFacts SolverSpec CgProof DenseModel CooModel Observe GenModel EigModel.
Set Implicit Arguments.
Local Existing Instance Rscalar.
Local Open Scope R_scope.

Ltac rs := cbn [fadd fsub fmul fdiv fopp f0 f1 Rscalar] in *.

Definition dst (i j : nat) : nat := ((i - j) + (j - i))%nat.
Definition th (M : nat) (a0 a1 a2 : R) (i j : nat) : R :=
  match dst i j with
  | O => if ((i =? 0) || (i =? M - 1))%nat%bool then a0 - a2 else a0
  | 1%nat => a1 | 2%nat => a2 | _ => 0 end.

Lemma sum_delta M k (x : R) : sum_n M (fun j => if (j =? k)%nat then x else 0) = if (k <? M)%nat then x else 0.
Proof.
  rewrite (@sum_single R Rscalar R_exact M k).
  - now rewrite Nat.eqb_refl.
  - intros i _ Hi. destruct (Nat.eqb_spec i k); [contradiction|reflexivity].
Qed.

Lemma mv_penta M a0 a1 a2 (s : Z -> R) i : (2 <= M)%nat -> (i < M)%nat ->
  s 0%Z = 0 -> s (-1)%Z = - s 1%Z -> s (Z.of_nat M + 1)%Z = 0 -> s (Z.of_nat M + 2)%Z = - s (Z.of_nat M) ->
  mv M (th M a0 a1 a2) (fun j => s (Z.of_nat j + 1)%Z) i =
  a2 * s (Z.of_nat i - 1)%Z + a1 * s (Z.of_nat i) + a0 * s (Z.of_nat i + 1)%Z + a1 * s (Z.of_nat i + 2)%Z + a2 * s (Z.of_nat i + 3)%Z.
Proof.
  intros HM Hi S0 S1 SM SM2. unfold mv.
  set (dg := if ((i =? 0) || (i =? M - 1))%nat%bool then a0 - a2 else a0).
  set (D k x := fun j : nat => if (j =? k)%nat then x else 0 : R).
  (* lower terms exist only when i is large enough *)
  set (l1 := if (i =? 0)%nat then 0 else a1 * s (Z.of_nat i)).
  set (l2 := if (i <? 2)%nat then 0 else a2 * s (Z.of_nat i - 1)%Z).
  rewrite (@sum_ext R Rscalar M _ (fun j =>
     D i (dg * s (Z.of_nat i + 1)%Z) j + (D (S i) (a1 * s (Z.of_nat i + 2)%Z) j + (D (S (S i)) (a2 * s (Z.of_nat i + 3)%Z) j +
     (D (i - 1)%nat l1 j + D (i - 2)%nat l2 j))))).
  2:{ intros j Hj. unfold D, l1, l2, th, dst. rs. fold dg.
      destruct (Nat.eqb_spec j i) as [->|N0].
      - rewrite Nat.sub_diag. cbn [Nat.add]. fold dg.
        destruct (Nat.eqb_spec i (S i)); [lia|]. destruct (Nat.eqb_spec i (S (S i))); [lia|].
        destruct (Nat.eqb_spec i 0), (Nat.ltb_spec i 2), (Nat.eqb_spec i (i - 1)), (Nat.eqb_spec i (i - 2)); try lia; ring.
      - destruct (Nat.eqb_spec j (S i)) as [->|N1].
        { replace (i - S i + (S i - i))%nat with 1%nat by lia. replace (Z.of_nat (S i) + 1)%Z with (Z.of_nat i + 2)%Z by lia.
          destruct (Nat.eqb_spec (S i) (S (S i))); [lia|].
          destruct (Nat.eqb_spec (S i) (i - 1)); [lia|]. destruct (Nat.eqb_spec (S i) (i - 2)); [lia|]. ring. }
        destruct (Nat.eqb_spec j (S (S i))) as [->|N2].
        { replace (i - S (S i) + (S (S i) - i))%nat with 2%nat by lia. replace (Z.of_nat (S (S i)) + 1)%Z with (Z.of_nat i + 3)%Z by lia.
          destruct (Nat.eqb_spec (S (S i)) (i - 1)); [lia|]. destruct (Nat.eqb_spec (S (S i)) (i - 2)); [lia|]. ring. }
        destruct (Nat.eqb_spec j (i - 1)) as [E|N3].
        { destruct (Nat.eqb_spec i 0); [lia|]. replace (i - j + (j - i))%nat with 1%nat by lia.
          replace (Z.of_nat j + 1)%Z with (Z.of_nat i) by lia.
          destruct (Nat.eqb_spec j (i - 2)); [destruct (Nat.ltb_spec i 2); [ring|lia]|ring]. }
        destruct (Nat.eqb_spec j (i - 2)) as [E|N4].
        { destruct (Nat.ltb_spec i 2); [lia|]. replace (i - j + (j - i))%nat with 2%nat by lia.
          replace (Z.of_nat j + 1)%Z with (Z.of_nat i - 1)%Z by lia. ring. }
        destruct (i - j + (j - i))%nat as [|[|[|d]]] eqn:E; try lia. ring. }
  rewrite !(@sum_add R Rscalar R_exact). unfold D. rewrite !sum_delta. rs.
  destruct (Nat.ltb_spec i M); [|lia]. destruct (Nat.ltb_spec (i - 1) M); [|lia]. destruct (Nat.ltb_spec (i - 2) M); [|lia].
  unfold l1, l2, dg.
  assert (I0 : i = 0%nat \/ (1 <= i)%nat) by lia. assert (I1 : (i = M - 1)%nat \/ (S i < M)%nat) by lia.
  assert (L : (if (S i <? M)%nat then a1 * s (Z.of_nat i + 2)%Z else 0) = a1 * s (Z.of_nat i + 2)%Z).
  { destruct (Nat.ltb_spec (S i) M); auto. replace (Z.of_nat i + 2)%Z with (Z.of_nat M + 1)%Z by lia. rewrite SM. ring. }
  rewrite L.
  assert (L1 : (if (i =? 0)%nat then 0 else a1 * s (Z.of_nat i)) = a1 * s (Z.of_nat i)).
  { destruct (Nat.eqb_spec i 0) as [->|]; auto. change (Z.of_nat 0) with 0%Z. rewrite S0. ring. }
  rewrite L1.
  assert (L2 : (if (i <? 2)%nat then 0 else a2 * s (Z.of_nat i - 1)%Z) = a2 * s (Z.of_nat i - 1)%Z + (if (i =? 0)%nat then a2 * s 1%Z else 0)).
  { destruct (Nat.ltb_spec i 2) as [H2|H2].
    - assert (i = 0%nat \/ i = 1%nat) as [-> | ->] by lia; cbn [Nat.eqb].
      + change (Z.of_nat 0 - 1)%Z with (-1)%Z. rewrite S1. ring.
      + change (Z.of_nat 1 - 1)%Z with 0%Z. rewrite S0. ring.
    - destruct (Nat.eqb_spec i 0); [lia|]. ring. }
  rewrite L2.
  assert (L3 : (if (S (S i) <? M)%nat then a2 * s (Z.of_nat i + 3)%Z else 0) =
      a2 * s (Z.of_nat i + 3)%Z + (if (i =? M - 1)%nat then a2 * s (Z.of_nat M) else 0)).
  { destruct (Nat.ltb_spec (S (S i)) M) as [H2|H2].
    - destruct (Nat.eqb_spec i (M - 1)); [lia|]. ring.
    - destruct (Nat.eqb_spec i (M - 1)) as [E|].
      + replace (Z.of_nat i + 3)%Z with (Z.of_nat M + 2)%Z by lia. rewrite SM2. ring.
      + replace (Z.of_nat i + 3)%Z with (Z.of_nat M + 1)%Z by lia. rewrite SM. ring. }
  rewrite L3.
  destruct (Nat.eqb_spec i 0) as [E0|E0]; destruct (Nat.eqb_spec i (M - 1)) as [E|E]; cbn [orb]; try lia.
  - subst i. change (Z.of_nat 0 + 1)%Z with 1%Z. ring.
  - replace (Z.of_nat i + 1)%Z with (Z.of_nat M) by lia. ring.
  - ring.
Qed.

(** ** sines *)
Definition sn (t : R) (k : Z) : R := sin (IZR k * t).

Lemma sn_step t k : sn t (k - 1) + sn t (k + 1) = 2 * cos t * sn t k.
Proof.
  unfold sn. rewrite minus_IZR, plus_IZR.
  replace ((IZR k - 1) * t) with (IZR k * t - t) by ring. replace ((IZR k + 1) * t) with (IZR k * t + t) by ring.
  rewrite sin_minus, sin_plus. ring.
Qed.
Lemma sn_step2 t k : sn t (k - 2) + sn t (k + 2) = 2 * cos (2 * t) * sn t k.
Proof.
  unfold sn. rewrite minus_IZR, plus_IZR.
  replace ((IZR k - 2) * t) with (IZR k * t - 2 * t) by ring. replace ((IZR k + 2) * t) with (IZR k * t + 2 * t) by ring.
  rewrite sin_minus, sin_plus. ring.
Qed.
Lemma sn_0 t : sn t 0 = 0.
Proof. unfold sn. rewrite Rmult_0_l. apply sin_0. Qed.
Lemma sn_opp t k : sn t (- k) = - sn t k.
Proof. unfold sn. rewrite opp_IZR, Ropp_mult_distr_l_reverse. apply sin_neg. Qed.

Lemma penta_eigen M a0 a1 a2 t i : (2 <= M)%nat -> (i < M)%nat -> sn t (Z.of_nat M + 1) = 0 ->
  mv M (th M a0 a1 a2) (fun j => sn t (Z.of_nat j + 1)) i =
  (a0 + 2 * (a1 * cos t + a2 * cos (2 * t))) * sn t (Z.of_nat i + 1).
Proof.
  intros HM Hi HZ.
  rewrite (@mv_penta M a0 a1 a2 (sn t) i); auto.
  - assert (E1 := sn_step t (Z.of_nat i + 1)). assert (E2 := sn_step2 t (Z.of_nat i + 1)).
    replace (Z.of_nat i + 1 - 1)%Z with (Z.of_nat i) in E1 by lia. replace (Z.of_nat i + 1 + 1)%Z with (Z.of_nat i + 2)%Z in E1 by lia.
    replace (Z.of_nat i + 1 - 2)%Z with (Z.of_nat i - 1)%Z in E2 by lia. replace (Z.of_nat i + 1 + 2)%Z with (Z.of_nat i + 3)%Z in E2 by lia.
    replace ((a0 + 2 * (a1 * cos t + a2 * cos (2 * t))) * sn t (Z.of_nat i + 1))
      with (a0 * sn t (Z.of_nat i + 1) + a1 * (2 * cos t * sn t (Z.of_nat i + 1)) + a2 * (2 * cos (2 * t) * sn t (Z.of_nat i + 1))) by ring.
    rewrite <- E1, <- E2. ring.
  - apply sn_0.
  - apply (sn_opp t 1).
  - assert (E := sn_step t (Z.of_nat M + 1)). rewrite HZ in E.
    replace (Z.of_nat M + 1 - 1)%Z with (Z.of_nat M) in E by lia. replace (Z.of_nat M + 1 + 1)%Z with (Z.of_nat M + 2)%Z in E by lia. lra.
Qed.

Lemma sin_mult_PI (k : Z) : sin (IZR k * PI) = 0.
Proof. apply sin_eq_0_1. exists k. reflexivity. Qed.

(** the angles *)
Definition ang (M N : Z) : R := PI * IZR (N + 1) / IZR (M + 1).

Lemma ang_range M N : (0 <= N < M)%Z -> 0 < ang M N < PI.
Proof.
  intros H. unfold ang. assert (HM : 0 < IZR (M + 1)) by (apply IZR_lt; lia).
  assert (HN : 0 < IZR (N + 1)) by (apply IZR_lt; lia). assert (HNM : IZR (N + 1) < IZR (M + 1)) by (apply IZR_lt; lia).
  assert (P := PI_RGT_0). split.
  - apply Rmult_lt_0_compat; [nra|]. apply Rinv_0_lt_compat. auto.
  - apply (Rmult_lt_reg_r (IZR (M + 1))); auto. unfold Rdiv. rewrite Rmult_assoc, Rinv_l by lra. nra.
Qed.
Lemma ang_mono M N N' : (0 <= M)%Z -> (N < N')%Z -> ang M N < ang M N'.
Proof.
  intros HM H. unfold ang, Rdiv. assert (0 < IZR (M + 1)) by (apply IZR_lt; lia).
  apply Rmult_lt_compat_r; [apply Rinv_0_lt_compat; auto|]. apply Rmult_lt_compat_l; [apply PI_RGT_0|]. apply IZR_lt. lia.
Qed.
Lemma ang_end M N : (0 <= M)%Z -> sn (ang M N) (M + 1) = 0.
Proof.
  intros HM. unfold sn, ang. replace (IZR (M + 1) * (PI * IZR (N + 1) / IZR (M + 1))) with (IZR (N + 1) * PI).
  - apply sin_mult_PI.
  - field. apply not_0_IZR. lia.
Qed.
Lemma ang_end' M N : (0 <= M)%Z -> sn (ang M N + PI) (M + 1) = 0.
Proof.
  intros HM. unfold sn, ang. replace (IZR (M + 1) * (PI * IZR (N + 1) / IZR (M + 1) + PI)) with (IZR (N + 1 + (M + 1)) * PI).
  - apply sin_mult_PI.
  - rewrite plus_IZR. field. apply not_0_IZR. lia.
Qed.

(** ** eigenvalues *)
Definition is_eigen (M : nat) (A : nat -> nat -> R) (lam : R) : Prop :=
  exists v : nat -> R, (exists i, (i < M)%nat /\ v i <> 0) /\ forall i, (i < M)%nat -> mv M A v i = lam * v i.

Lemma penta_is_eigen M N a0 a1 a2 : (2 <= M)%nat -> (0 <= N < Z.of_nat M)%Z ->
  is_eigen M (th M a0 a1 a2) (a0 + 2 * (a1 * cos (ang (Z.of_nat M) N) + a2 * cos (2 * ang (Z.of_nat M) N))).
Proof.
  intros HM HN. exists (fun j => sn (ang (Z.of_nat M) N) (Z.of_nat j + 1)). split.
  - exists 0%nat. split; [lia|]. unfold sn. rewrite Rmult_1_l. destruct (ang_range HN).
    apply Rgt_not_eq. apply sin_gt_0; auto.
  - intros i Hi. apply penta_eigen; auto. apply ang_end. lia.
Qed.
(** the other sign of the off-diagonal *)
Lemma tri_is_eigen M N a b : (2 <= M)%nat -> (0 <= N < Z.of_nat M)%Z ->
  is_eigen M (th M a b 0) (tridiagonal_toeplitz_matrix_eigenvalue (Z.of_nat M) N a b).
Proof.
  intros HM HN. unfold tridiagonal_toeplitz_matrix_eigenvalue. fold (ang (Z.of_nat M) N).
  destruct (Rle_dec b 0) as [Hb|Hb].
  - rewrite Rabs_left1 by auto.
    replace (a - 2 * - b * cos (ang (Z.of_nat M) N)) with (a + 2 * (b * cos (ang (Z.of_nat M) N) + 0 * cos (2 * ang (Z.of_nat M) N))) by ring.
    apply penta_is_eigen; auto.
  - rewrite Rabs_pos_eq by lra. set (t := ang (Z.of_nat M) N + PI).
    exists (fun j => sn t (Z.of_nat j + 1)). split.
    + exists 0%nat. split; [lia|]. unfold sn, t. rewrite Rmult_1_l, neg_sin. destruct (ang_range HN) as [H1 H2].
      assert (0 < sin (ang (Z.of_nat M) N)) by (apply sin_gt_0; auto). lra.
    + intros i Hi. rewrite penta_eigen by (auto; apply ang_end'; lia). f_equal. unfold t. rewrite neg_cos. ring.
Qed.

Lemma tri_eig_mono M N N' a b : b <> 0 -> (0 <= N)%Z -> (N < N')%Z -> (N' < M)%Z ->
  tridiagonal_toeplitz_matrix_eigenvalue M N a b < tridiagonal_toeplitz_matrix_eigenvalue M N' a b.
Proof.
  intros Hb H0 H1 H2. unfold tridiagonal_toeplitz_matrix_eigenvalue. fold (ang M N) (ang M N').
  assert (0 < Rabs b) by (apply Rabs_pos_lt; auto).
  destruct (@ang_range M N) as [A1 A2]; [lia|]. destruct (@ang_range M N') as [B1 B2]; [lia|].
  assert (ang M N < ang M N') by (apply ang_mono; lia).
  assert (cos (ang M N') < cos (ang M N)) by (apply cos_decreasing_1; lra). nra.
Qed.

(** ** a symmetric M x M matrix has no more than M eigenvalues *)
Lemma R_field : @field_arith R Rscalar.
Proof.
  split; [|split; [|reflexivity]].
  - intros a b Hb. rs. field. auto.
  - intros a b. cbn [feqb Rscalar]. destruct (Req_EM_T a b); split; intros; congruence.
Qed.

Lemma dot_self_zero n (v : nat -> R) : dotp n v v = 0 -> forall i, (i < n)%nat -> v i = 0.
Proof.
  unfold dotp. assert (P : forall n, 0 <= sum_n n (fun i => v i * v i)).
  { induction n0 as [|k IH]; cbn [sum_n]; rs; [lra|]. nra. }
  induction n as [|n IH]; intros H i Hi; [lia|]. cbn [sum_n] in H. rs. specialize (P n).
  assert (E1 : sum_n n (fun i => v i * v i) = 0) by nra. assert (E2 : v n * v n = 0) by nra.
  destruct (Nat.eq_dec i n) as [->|]; [nra|]. apply IH; auto. lia.
Qed.

Lemma eigen_orth M A l1 l2 v1 v2 : (forall i j, (i < M)%nat -> (j < M)%nat -> A i j = A j i) -> l1 <> l2 ->
  (forall i, (i < M)%nat -> mv M A v1 i = l1 * v1 i) -> (forall i, (i < M)%nat -> mv M A v2 i = l2 * v2 i) -> dotp M v1 v2 = 0.
Proof.
  intros Hs Hl H1 H2.
  assert (E : l1 * dotp M v1 v2 = l2 * dotp M v1 v2).
  { transitivity (dotp M (mv M A v1) v2).
    - unfold dotp. transitivity (sum_n M (fun i => l1 * (v1 i * v2 i))); [symmetry; exact (@sum_scal R Rscalar R_exact M l1 _)|].
      apply sum_ext. intros i Hi. rewrite H1 by auto. rs. ring.
    - rewrite (@adjoint R Rscalar R_exact). unfold dotp.
      transitivity (sum_n M (fun i => l2 * (v1 i * v2 i))); [|exact (@sum_scal R Rscalar R_exact M l2 _)].
      apply sum_ext. intros i Hi.
      assert (E : mv M (fun j i0 => A i0 j) v2 i = l2 * v2 i).
      { rewrite <- H2 by auto. unfold mv. apply sum_ext. intros j Hj. now rewrite (Hs j i) by auto. }
      rewrite E. rs. ring. }
  assert ((l1 - l2) * dotp M v1 v2 = 0) by lra. apply Rmult_integral in H. destruct H; [lra|auto].
Qed.

Lemma eigen_at_most M A (f : nat -> R) : (forall i j, (i < M)%nat -> (j < M)%nat -> A i j = A j i) ->
  (forall k, (k < M)%nat -> is_eigen M A (f k)) -> (forall k k', (k < k')%nat -> (k' < M)%nat -> f k < f k') ->
  forall mu, is_eigen M A mu -> exists k, (k < M)%nat /\ mu = f k.
Proof.
  intros Hs He Hm mu Hmu.
  destruct (Exists_dec (fun k => mu = f k) (seq 0 M) (fun k => Req_EM_T mu (f k))) as [HE|HE].
  { apply Exists_exists in HE. destruct HE as (k & Hk & E). apply in_seq in Hk. exists k. split; [lia|auto]. }
  exfalso.
  assert (Ex : forall n, (n <= M)%nat -> exists vs, length vs = n /\ orth M vs /\
      (forall v, In v vs -> exists k, (k < n)%nat /\ forall i, (i < M)%nat -> mv M A v i = f k * v i)).
  { induction n as [|n IH]; intros Hn.
    - exists []. split; auto. split; [exact I|]. intros v [].
    - destruct (IH ltac:(lia)) as (vs & HL & HO & HV). destruct (He n ltac:(lia)) as (v & (i & Hi & Hvi) & Hv).
      exists (v :: vs). split; [cbn; lia|]. split.
      + split; [|split; auto].
        * intros H. apply Hvi. eapply dot_self_zero; eauto.
        * intros w Hw. destruct (HV w Hw) as (k & Hk & Hwk). apply (@eigen_orth M A (f n) (f k)); auto.
          assert (f k < f n) by (apply Hm; lia). apply Rgt_not_eq; auto.
      + intros w [<-|Hw]; [exists n; split; auto|]. destruct (HV w Hw) as (k & Hk & Hwk). exists k. split; auto. }
  destruct (Ex M (Nat.le_refl _)) as (vs & HL & HO & HV).
  destruct Hmu as (v & (i & Hi & Hvi) & Hv).
  assert (HO' : orth M (v :: vs)).
  { split; [|split; auto].
    - intros H. apply Hvi. eapply dot_self_zero; eauto.
    - intros w Hw. destruct (HV w Hw) as (k & Hk & Hwk). apply (@eigen_orth M A mu (f k)); auto.
      intros E. apply HE. apply Exists_exists. exists k. split; [apply in_seq; lia|auto]. }
  apply (@orth_bound R Rscalar R_exact R_field) in HO'. cbn in HO'. lia.
Qed.

Lemma th_sym M a0 a1 a2 i j : (i < M)%nat -> (j < M)%nat -> th M a0 a1 a2 i j = th M a0 a1 a2 j i.
Proof.
  intros Hi Hj. unfold th. assert (E : dst i j = dst j i) by (unfold dst; lia). rewrite <- E.
  destruct (dst i j) as [|[|[|d]]] eqn:D; auto. assert (i = j) by (unfold dst in D; lia). subst. auto.
Qed.


(** ** the sine vectors: a complete orthogonal family, eigenvectors of every such matrix *)
Definition sv (M N : nat) : nat -> R := fun j => sn (ang (Z.of_nat M) (Z.of_nat N)) (Z.of_nat j + 1).
Definition penta_value (M N : nat) (a0 a1 a2 : R) : R :=
  a0 + 2 * (a1 * cos (ang (Z.of_nat M) (Z.of_nat N)) + a2 * cos (2 * ang (Z.of_nat M) (Z.of_nat N))).

Lemma sv_eigen M N a0 a1 a2 i : (2 <= M)%nat -> (N < M)%nat -> (i < M)%nat ->
  mv M (th M a0 a1 a2) (sv M N) i = penta_value M N a0 a1 a2 * sv M N i.
Proof. intros HM HN Hi. apply penta_eigen; auto. apply ang_end. lia. Qed.

Lemma sv_nonzero M N : (2 <= M)%nat -> (N < M)%nat -> exists i, (i < M)%nat /\ sv M N i <> 0.
Proof.
  intros HM HN. exists 0%nat. split; [lia|]. unfold sv, sn. rewrite Rmult_1_l.
  assert (H : (0 <= Z.of_nat N < Z.of_nat M)%Z) by lia. destruct (ang_range H). apply Rgt_not_eq. apply sin_gt_0; auto.
Qed.

Lemma sv_orth M N N' : (2 <= M)%nat -> (N < N')%nat -> (N' < M)%nat -> dotp M (sv M N') (sv M N) = 0.
Proof.
  intros HM H1 H2.
  apply (@eigen_orth M (th M 0 1 0) (penta_value M N' 0 1 0) (penta_value M N 0 1 0)).
  - intros. apply th_sym; auto.
  - unfold penta_value. assert (A1 : (0 <= Z.of_nat N < Z.of_nat M)%Z) by lia. assert (A2 : (0 <= Z.of_nat N' < Z.of_nat M)%Z) by lia.
    apply ang_range in A1. apply ang_range in A2.
    assert (A3 : ang (Z.of_nat M) (Z.of_nat N) < ang (Z.of_nat M) (Z.of_nat N')) by (apply ang_mono; lia).
    assert (cos (ang (Z.of_nat M) (Z.of_nat N')) < cos (ang (Z.of_nat M) (Z.of_nat N))) by (apply cos_decreasing_1; lra).
    apply Rlt_not_eq. lra.
  - intros. apply sv_eigen; auto.
  - intros. apply sv_eigen; auto. lia.
Qed.

Lemma sv_complete M v : (2 <= M)%nat -> (forall N, (N < M)%nat -> dotp M v (sv M N) = 0) -> forall i, (i < M)%nat -> v i = 0.
Proof.
  intros HM Hv. assert (Ex : forall n, (n <= M)%nat -> exists vs, length vs = n /\ orth M vs /\
      (forall w, In w vs -> exists k, (k < n)%nat /\ w = sv M k)).
  { induction n as [|n IH]; intros Hn.
    - exists []. split; auto. split; [exact I|]. intros w [].
    - destruct (IH ltac:(lia)) as (vs & HL & HO & HV). exists (sv M n :: vs). split; [cbn; lia|]. split.
      + split; [|split; auto].
        * intros H. destruct (@sv_nonzero M n HM ltac:(lia)) as (i & Hi & Hne). apply Hne. eapply dot_self_zero; eauto.
        * intros w Hw. destruct (HV w Hw) as (k & Hk & ->). apply sv_orth; auto.
      + intros w [<-|Hw]; [exists n; split; auto|]. destruct (HV w Hw) as (k & Hk & ->). exists k. split; auto. }
  destruct (Ex M (Nat.le_refl _)) as (vs & HL & HO & HV).
  destruct (Req_EM_T (dotp M v v) 0) as [E|NE].
  - apply dot_self_zero. auto.
  - exfalso. assert (HO' : orth M (v :: vs)).
    { split; [auto|split; auto]. intros w Hw. destruct (HV w Hw) as (k & Hk & ->). apply Hv. auto. }
    apply (@orth_bound R Rscalar R_exact R_field) in HO'. cbn in HO'. lia.
Qed.

(** A v = mu B v for a nonzero v *)
Definition gen_eigen (M : nat) (A B : nat -> nat -> R) (mu : R) : Prop :=
  exists v : nat -> R, (exists i, (i < M)%nat /\ v i <> 0) /\ forall i, (i < M)%nat -> mv M A v i = mu * mv M B v i.

Lemma mv_dot_sv M N a0 a1 a2 v : (2 <= M)%nat -> (N < M)%nat ->
  dotp M (mv M (th M a0 a1 a2) v) (sv M N) = penta_value M N a0 a1 a2 * dotp M v (sv M N).
Proof.
  intros HM HN. rewrite (@adjoint R Rscalar R_exact). unfold dotp.
  transitivity (sum_n M (fun i => penta_value M N a0 a1 a2 * (v i * sv M N i))); [|exact (@sum_scal R Rscalar R_exact M _ _)].
  apply sum_ext. intros i Hi.
  assert (E : mv M (fun j i0 => th M a0 a1 a2 i0 j) (sv M N) i = penta_value M N a0 a1 a2 * sv M N i).
  { rewrite <- sv_eigen by auto. unfold mv. apply sum_ext. intros j Hj. now rewrite th_sym by auto. }
  rewrite E. rs. ring.
Qed.

Lemma gen_eigen_iff M a0 a1 a2 b0 b1 b2 : (2 <= M)%nat ->
  (forall N, (N < M)%nat -> penta_value M N b0 b1 b2 <> 0) -> forall mu,
  gen_eigen M (th M a0 a1 a2) (th M b0 b1 b2) mu <->
  exists N, (N < M)%nat /\ mu = penta_value M N a0 a1 a2 / penta_value M N b0 b1 b2.
Proof.
  intros HM Hb mu. split.
  - intros (v & (i & Hi & Hvi) & Hv).
    destruct (Forall_dec (fun N => dotp M v (sv M N) = 0) (fun N => Req_EM_T _ _) (seq 0 M)) as [H|H].
    { exfalso. apply Hvi. apply (@sv_complete M v); auto. intros N HN. rewrite Forall_forall in H. apply H. apply in_seq. lia. }
    apply Exists_Forall_neg in H; [|intros N; destruct (Req_EM_T (dotp M v (sv M N)) 0); auto].
    apply Exists_exists in H. destruct H as (N & HN & Hd). apply in_seq in HN. exists N. split; [lia|].
    assert (E : penta_value M N a0 a1 a2 * dotp M v (sv M N) = mu * (penta_value M N b0 b1 b2 * dotp M v (sv M N))).
    { rewrite <- !mv_dot_sv by (auto; lia). unfold dotp.
      transitivity (sum_n M (fun i => mu * (mv M (th M b0 b1 b2) v i * sv M N i))); [|exact (@sum_scal R Rscalar R_exact M _ _)].
      apply sum_ext. intros k Hk. rewrite Hv by auto. rs. ring. }
    assert (HB := Hb N ltac:(lia)).
    apply (Rmult_eq_reg_r (dotp M v (sv M N))); auto. apply (Rmult_eq_reg_r (penta_value M N b0 b1 b2)); auto.
    replace (penta_value M N a0 a1 a2 / penta_value M N b0 b1 b2 * dotp M v (sv M N) * penta_value M N b0 b1 b2)
      with (penta_value M N a0 a1 a2 * dotp M v (sv M N)) by (field; auto).
    rewrite E. ring.
  - intros (N & HN & ->). exists (sv M N). split; [apply sv_nonzero; auto|]. intros i Hi. rewrite !sv_eigen by auto.
    field. apply Hb. auto.
Qed.

(** ** the Frank matrix *)
Definition fr (M : nat) (i j : nat) : R := IZR (Z.of_nat M - Z.of_nat (Nat.max i j)).

Lemma fr_diff M v i : (i < M)%nat -> mv M (fr M) v i - mv M (fr M) v (S i) = sum_n (S i) v.
Proof.
  intros Hi. unfold mv.
  assert (G : forall n, sum_n n (fun j => fr M i j * v j) - sum_n n (fun j => fr M (S i) j * v j) = sum_n (Nat.min n (S i)) v).
  { induction n as [|n IH]; [cbn; rs; ring|]. cbn [sum_n]. rs.
    destruct (Nat.le_gt_cases n i) as [H|H].
    - replace (Nat.min (S n) (S i)) with (S n) by lia. replace (Nat.min n (S i)) with n in IH by lia. cbn [sum_n]. rs. rewrite <- IH.
      unfold fr. replace (Nat.max i n) with i by lia. replace (Nat.max (S i) n) with (S i) by lia.
      replace (Z.of_nat M - Z.of_nat (S i))%Z with (Z.of_nat M - Z.of_nat i - 1)%Z by lia. rewrite !minus_IZR. ring.
    - replace (Nat.min (S n) (S i)) with (S i) by lia. replace (Nat.min n (S i)) with (S i) in IH by lia. rewrite <- IH.
      unfold fr. replace (Nat.max i n) with n by lia. replace (Nat.max (S i) n) with n by lia. ring. }
  specialize (G M). replace (Nat.min M (S i)) with (S i) in G by lia. exact G.
Qed.
Lemma fr_last M v : mv M (fr M) v M = 0.
Proof.
  unfold mv. rewrite (@sum_ext R Rscalar M _ (fun _ => 0)).
  - clear. induction M as [|M IH]; cbn [sum_n]; rs; [reflexivity|]. rewrite IH. ring.
  - intros j Hj. unfold fr. replace (Nat.max M j) with M by lia. rewrite Z.sub_diag. rs. ring.
Qed.
Lemma fr_sym M i j : fr M i j = fr M j i.
Proof. unfold fr. now rewrite Nat.max_comm. Qed.

Definition cv (p : R) (i : nat) : R := cos ((INR i + 1 / 2) * p).
Lemma cv_sum p n : 2 * sin (p / 2) * sum_n n (cv p) = sin (INR n * p).
Proof.
  induction n as [|n IH].
  - cbn. rs. rewrite Rmult_0_l, sin_0. ring.
  - cbn [sum_n]. rs. rewrite Rmult_plus_distr_l, IH, S_INR. unfold cv.
    replace ((INR n + 1) * p) with ((INR n + 1 / 2) * p + p / 2) by field.
    replace (INR n * p) with ((INR n + 1 / 2) * p - p / 2) by field.
    rewrite sin_plus, sin_minus. ring.
Qed.
Lemma cv_diff p i : cv p i - cv p (S i) = 2 * sin (p / 2) * sin (INR (S i) * p).
Proof.
  unfold cv. rewrite S_INR.
  replace ((INR i + 1 / 2) * p) with ((INR i + 1) * p - p / 2) by field.
  replace ((INR i + 1 + 1 / 2) * p) with ((INR i + 1) * p + p / 2) by field.
  rewrite cos_plus, cos_minus. ring.
Qed.

Lemma fr_eigen M p : sin (p / 2) <> 0 -> cv p M = 0 -> forall i, (i <= M)%nat ->
  mv M (fr M) (cv p) i = 1 / (2 * (1 - cos p)) * cv p i.
Proof.
  intros Hs HM.
  assert (Hc : 1 - cos p = 2 * (sin (p / 2) * sin (p / 2))).
  { replace p with (2 * (p / 2)) at 1 by field. rewrite cos_2a_sin. ring. }
  assert (Hl : forall i, sum_n (S i) (cv p) = 1 / (2 * (1 - cos p)) * (cv p i - cv p (S i))).
  { intros i. rewrite cv_diff, <- (cv_sum p (S i)), Hc. field. auto. }
  assert (G : forall d i, (i + d = M)%nat -> mv M (fr M) (cv p) i = 1 / (2 * (1 - cos p)) * cv p i).
  { induction d as [|d IH]; intros i E.
    - replace i with M by lia. rewrite fr_last, HM. ring.
    - assert (D := @fr_diff M (cv p) i ltac:(lia)). rewrite (IH (S i)) in D by lia. rewrite Hl in D. lra. }
  intros i Hi. apply (G (M - i)%nat). lia.
Qed.

(** angle number k of the Frank matrix *)
Definition fang (M k : Z) : R := PI * IZR (2 * k - 1) / IZR (2 * M + 1).
Lemma fang_range M k : (1 <= k <= M)%Z -> 0 < fang M k < PI.
Proof.
  intros H. unfold fang. assert (HM : 0 < IZR (2 * M + 1)) by (apply IZR_lt; lia).
  assert (HN : 0 < IZR (2 * k - 1)) by (apply IZR_lt; lia). assert (HNM : IZR (2 * k - 1) < IZR (2 * M + 1)) by (apply IZR_lt; lia).
  assert (P := PI_RGT_0). split.
  - apply Rmult_lt_0_compat; [nra|]. apply Rinv_0_lt_compat. auto.
  - apply (Rmult_lt_reg_r (IZR (2 * M + 1))); auto. unfold Rdiv. rewrite Rmult_assoc, Rinv_l by lra. nra.
Qed.
Lemma fang_mono M k k' : (0 <= M)%Z -> (k < k')%Z -> fang M k < fang M k'.
Proof.
  intros HM H. unfold fang, Rdiv. assert (0 < IZR (2 * M + 1)) by (apply IZR_lt; lia).
  apply Rmult_lt_compat_r; [apply Rinv_0_lt_compat; auto|]. apply Rmult_lt_compat_l; [apply PI_RGT_0|]. apply IZR_lt. lia.
Qed.
Lemma fang_end (M : nat) k : cv (fang (Z.of_nat M) k) M = 0.
Proof.
  unfold cv, fang. rewrite INR_IZR_INZ.
  replace ((IZR (Z.of_nat M) + 1 / 2) * (PI * IZR (2 * k - 1) / IZR (2 * Z.of_nat M + 1))) with (IZR (k - 1) * PI + PI / 2).
  - rewrite cos_plus, cos_PI2, sin_mult_PI. ring.
  - assert (P : 0 <= IZR (Z.of_nat M)) by (apply IZR_le; lia).
    rewrite plus_IZR, !minus_IZR, !mult_IZR. field. lra.
Qed.

Lemma frank_fang M N : frank_matrix_eigenvalue M N = 1 / (2 * (1 - cos (fang M (M - N + 2)))).
Proof. unfold frank_matrix_eigenvalue, fang. replace (2 * (M - N + 2) - 1)%Z with (2 * (M - N + 1) + 1)%Z by lia. reflexivity. Qed.

Lemma fr_is_eigen M k : (1 <= k <= Z.of_nat M)%Z -> is_eigen M (fr M) (1 / (2 * (1 - cos (fang (Z.of_nat M) k)))).
Proof.
  intros Hk. assert (R := fang_range Hk). exists (cv (fang (Z.of_nat M) k)). split.
  - exists 0%nat. split; [lia|]. unfold cv. cbn [INR]. apply Rgt_not_eq. apply cos_gt_0; lra.
  - intros i Hi. apply fr_eigen; [|apply fang_end|lia]. apply Rgt_not_eq. apply sin_gt_0; lra.
Qed.

Lemma frank_mono (M : nat) (n n' : nat) : (n < n')%nat -> (n' < M)%nat ->
  frank_matrix_eigenvalue (Z.of_nat M) (Z.of_nat n + 2) < frank_matrix_eigenvalue (Z.of_nat M) (Z.of_nat n' + 2).
Proof.
  intros H1 H2. rewrite !frank_fang.
  set (k := (Z.of_nat M - (Z.of_nat n + 2) + 2)%Z). set (k' := (Z.of_nat M - (Z.of_nat n' + 2) + 2)%Z).
  assert (K : (1 <= k' < k)%Z) by (unfold k, k'; lia). assert (K2 : (k <= Z.of_nat M)%Z) by (unfold k; lia).
  assert (A1 := @fang_range (Z.of_nat M) k ltac:(lia)). assert (A2 := @fang_range (Z.of_nat M) k' ltac:(lia)).
  assert (A3 : fang (Z.of_nat M) k' < fang (Z.of_nat M) k) by (apply fang_mono; lia).
  assert (B1 : cos (fang (Z.of_nat M) k) < cos (fang (Z.of_nat M) k')) by (apply cos_decreasing_1; lra).
  assert (B2 : cos (fang (Z.of_nat M) k') < cos 0) by (apply cos_decreasing_1; lra). rewrite cos_0 in B2.
  unfold Rdiv. rewrite !Rmult_1_l. apply Rinv_lt_contravar; [nra|lra].
Qed.

(** the value returned for N = 1 *)
Lemma frank_one M : (0 <= M)%Z -> frank_matrix_eigenvalue M 1 = 1 / 4.
Proof.
  intros HM. unfold frank_matrix_eigenvalue. replace (2 * (M - 1 + 1) + 1)%Z with (2 * M + 1)%Z by lia.
  replace (PI * IZR (2 * M + 1) / IZR (2 * M + 1)) with PI; [rewrite cos_PI; field|]. field. apply not_0_IZR. lia.
Qed.

Lemma quarter_not_eigen M : ~ is_eigen M (fr M) (1 / 4).
Proof.
  intros (v & (i & Hi & Hvi) & Hv).
  assert (D : forall n, (S n < M)%nat -> v (S n) = v n - 4 * sum_n (S n) v).
  { intros n Hn. assert (D := @fr_diff M v n ltac:(lia)). rewrite !Hv in D by lia. lra. }
  assert (L : forall n, (S n = M)%nat -> v n = 4 * sum_n (S n) v).
  { intros n Hn. assert (D' := @fr_diff M v n ltac:(lia)). rewrite Hn in *. rewrite fr_last, Hv in D' by lia. lra. }
  assert (G : forall n, (n < M)%nat -> v n = (-1) ^ n * (2 * INR n + 1) * v 0%nat /\ sum_n (S n) v = (-1) ^ n * (INR n + 1) * v 0%nat).
  { induction n as [|n IH]; intros Hn.
    - cbn. rs. split; ring.
    - destruct (IH ltac:(lia)) as [E1 E2].
      assert (E : v (S n) = (-1) ^ S n * (2 * INR (S n) + 1) * v 0%nat).
      { rewrite D by lia. rewrite E1, E2. rewrite S_INR. cbn [pow]. ring. }
      split; auto. change (sum_n (S (S n)) v) with (sum_n (S n) v + v (S n)). rewrite E2, E, S_INR. cbn [pow]. ring. }
  assert (Z0 : v 0%nat = 0).
  { destruct M as [|n]; [lia|]. destruct (G n ltac:(lia)) as [E1 E2]. rewrite (L n eq_refl), E2 in E1.
    assert (P : (-1) ^ n <> 0) by (apply pow_nonzero; lra). assert (0 <= INR n) by apply pos_INR.
    assert (E : (-1) ^ n * ((2 * INR n + 3) * v 0%nat) = 0) by lra.
    apply Rmult_integral in E. destruct E as [E|E]; [contradiction|]. apply Rmult_integral in E. destruct E; [lra|auto]. }
  apply Hvi. destruct (G i Hi) as [E _]. rewrite E, Z0. ring.
Qed.
