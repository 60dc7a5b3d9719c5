(** * PropertiesConv: C98, C99, convergence of Jacobi and SOR for diagonally dominant matrices (real arithmetic). *)
From Coq Require Import Reals Psatz Lra.
From Verif Require Import Base Scalar Spec SumFacts DenseModel CooModel Observe CrsModel CrsObserve SolverModel SolverSpec EigModel
  SolverProof SolverProof2 SolverSorProof PropertiesSolver ConvSpec ConvProof.
Set Implicit Arguments.
Local Open Scope R_scope.
#[local] Hint Extern 0 (Scalar R) => exact Rscalar : typeclass_instances.

Section Jacobi.
Variables (A : matif (F:=R)) (n : nat) (M : nat -> nat -> R) (q : R) (pre : precond (F:=R)) (x b : list R) (li : nat) (lr : R).
Hypothesis HA : represents A n M.
Hypothesis HD : has_diag A n M.
Hypothesis Hpre : pre_ok A n pre.
Hypothesis Hq : dominant n M q.
Hypothesis Hx : length x = n.
Hypothesis Hb : length b = n.
Hypothesis Hb0 : exists i, (i < n)%nat /\ fn b i <> 0.

Let lo0 : nat -> nat -> R := fun _ _ => 0.
Let Hlo : forall i j, (i < n)%nat -> (i <= j)%nat -> lo0 i j = 0 := fun _ _ _ _ => eq_refl.
Lemma jac_cond : forall i, (i < n)%nat -> M i i <> 0 /\
  Rabs (M i i - M i i) + Sm n (fun j => if (j =? i)%nat then 0 else Rabs (lo0 i j - M i j) + Rabs (lo0 i j)) <= q * Rabs (M i i).
Proof.
  intros i Hi. destruct Hq as (_ & H). destruct (H i Hi) as (H1 & H2). split; auto.
  rewrite Rminus_diag_eq, Rabs_R0, Rplus_0_l by reflexivity. eapply Rle_trans; [|exact H2]. right. apply Sm_ext. intros j Hj.
  destruct (j =? i)%nat; auto. unfold lo0, Rminus. rewrite Rplus_0_l, Rabs_Ropp, Rabs_R0. ring.
Qed.

Lemma jacobi_solve_run c : s_lib c = 0%nat -> s_method c = 0%nat ->
  exists o, jacobi_solve c A pre x b li lr = Ok o /\ run_ok c n M lo0 (fun i => M i i) q b 0 (s_maxiter c) x (1 / norm2 n (fn b)) o.
Proof.
  intros Hl Hm. destruct Hpre as (f & Ef & Hf). unfold jacobi_solve. rewrite Hl. unfold monolish_jacobi.
  pose proof HA as (R1 & R2 & R3). rewrite R1, R2, Nat.eqb_refl. cbn [require_ bind].
  rewrite (@v_nrm2_exact R Rscalar R_exact n) by auto. cbn [bind].
  assert (Hz : length (repeat (@f0 R Rscalar) n) = n) by now rewrite repeat_length.
  destruct (HD _ Hz) as (d & -> & Hd & Hdi). cbn [bind].
  rewrite (@v_recip_ok R Rscalar n) by auto. cbn [bind]. rewrite Ef. cbn [bind].
  apply (@jacobi_run c A n M lo0 (fun i => M i i) q b HA Hm Hb (proj1 Hq) Hlo jac_cond f); auto.
  - pose proof (@norm_b_pos n b Hb0). cbn [fdiv f1 Rscalar]. apply Rlt_le, Rdiv_lt_0_compat; lra.
  - now rewrite map_length.
  - intros i Hi. unfold fn. rewrite nth_indep with (d' := 1 / 0) by (rewrite map_length; lia).
    rewrite (map_nth (fun v => 1 / v)). f_equal. apply Hdi. auto.
Qed.

(** SUCCESS after finitely many iterations; the same outcome for every larger limit *)
Theorem C98_jacobi_converges c : s_lib c = 0%nat -> s_method c = 0%nat -> 0 < s_tol c ->
  converges (fun c => jacobi_solve c A pre x b li lr) c.
Proof.
  intros Hl Hm Ht.
  set (t := map (fun i => residual n M x b i / M i i) (seq 0 n)).
  apply (@run_converges (fun c => jacobi_solve c A pre x b li lr) c n M lo0 (fun i => M i i) q b x (1 / norm2 n (fn b)) t); auto.
  - exact (proj1 Hq).
  - intros i Hi. apply (jac_cond Hi).
  - intros i Hi. unfold Pu, lo0. rewrite (@Sm_scal n 0 (fn t)). unfold t at 2, fn. rewrite nth_map_seq by auto. cbn [Nat.add].
    destruct (jac_cond Hi) as (H & _). field. auto.
  - apply (@jacobi_limit R Rscalar); auto.
  - intros m. apply (@jacobi_solve_run (with_maxiter c m)); auto.
Qed.
(** whatever the outcome, the distance to the solution has shrunk by q in every iteration *)
Theorem C98_jacobi_error c : s_lib c = 0%nat -> s_method c = 0%nat ->
  exists o, jacobi_solve c A pre x b li lr = Ok o /\
    forall xs E, solution n M b xs -> within n E (fun i => fn x i - xs i) -> within n (q ^ o_iter o * E) (fun i => fn (o_x o) i - xs i).
Proof.
  intros Hl Hm. destruct (@jacobi_solve_run c Hl Hm) as (o & E & _ & _ & H & _). exists o. split; auto. intros xs D H1 H2.
  pose proof (H xs D H1 H2) as G. now rewrite Nat.sub_0_r in G.
Qed.
(** after SUCCESS the reported residual bounds the distance of the returned x from the solution *)
Theorem C98_jacobi_final_resid c o : s_lib c = 0%nat -> s_method c = 0%nat -> jacobi_solve c A pre x b li lr = Ok o -> o_code o = SUCCESS ->
  forall xs, solution n M b xs -> within n (q / (1 - q) * o_resid o) (fun i => fn (o_x o) i - xs i).
Proof.
  intros Hl Hm E Hc xs Hs. destruct (@C35_jacobi_partial R Rscalar c A n M pre x b li lr) as (o' & E' & _ & _ & H); auto; [exact R_exact|].
  rewrite E in E'. injection E' as <-. destruct (H Hc) as (_ & _ & xp & t & L1 & L2 & _ & H1 & H2 & ->).
  apply (@corr_post n M lo0 (fun i => M i i) q (proj1 Hq) Hlo jac_cond b xp t (o_x o)); auto.
  - intros i Hi. unfold Pu, lo0. rewrite (@Sm_scal n 0 (fn t)). rewrite H1 by auto. destruct (jac_cond Hi) as (H0 & _). cbn [fmul fdiv f1 Rscalar]. field. auto.
  - intros i Hi. apply within_norm. auto.
Qed.
End Jacobi.

Section SOR.
Variables (A : matif (F:=R)) (n : nat) (M : nat -> nat -> R) (q : R) (lower : list R -> list R -> list R -> res (list R)) (x b : list R) (li : nat) (lr : R).
Hypothesis HA : represents A n M.
Hypothesis HD : has_diag A n M.
Hypothesis Hlow : forall d t r, length d = n -> length t = n -> length r = n ->
  exists t', lower d t r = Ok t' /\ length t' = n /\ solves_lower n M d r t'.
Hypothesis Hq : dominant n M q.
Hypothesis Hx : length x = n.
Hypothesis Hb : length b = n.
Hypothesis Hb0 : exists i, (i < n)%nat /\ fn b i <> 0.

Let lo1 : nat -> nat -> R := fun i j => if (j <? i)%nat then M i j else 0.
Lemma lo1_lower : forall i j, (i < n)%nat -> (i <= j)%nat -> lo1 i j = 0.
Proof. intros i j _ H. unfold lo1. destruct (Nat.ltb_spec j i); [lia|reflexivity]. Qed.
(** contraction factor of one sweep with relaxation w *)
Definition sor_rate (w : R) : R := Rabs (1 - w) + w * q.
Lemma sor_cond w : 0 < w -> forall i, (i < n)%nat -> 1 / w * M i i <> 0 /\
  Rabs (1 / w * M i i - M i i) + Sm n (fun j => if (j =? i)%nat then 0 else Rabs (lo1 i j - M i j) + Rabs (lo1 i j)) <= sor_rate w * Rabs (1 / w * M i i).
Proof.
  intros W i Hi. destruct Hq as (_ & H). destruct (H i Hi) as (H1 & H2). assert (W1 : 0 < 1 / w) by (apply Rdiv_lt_0_compat; lra).
  split; [apply Rmult_integral_contrapositive_currified; lra|].
  assert (E : Sm n (fun j => if (j =? i)%nat then 0 else Rabs (lo1 i j - M i j) + Rabs (lo1 i j)) = offdiag n M i).
  { apply Sm_ext. intros j Hj. destruct (j =? i)%nat; auto. unfold lo1. destruct (j <? i)%nat.
    - rewrite Rminus_diag_eq, Rabs_R0 by reflexivity. ring.
    - unfold Rminus. rewrite Rplus_0_l, Rabs_Ropp, Rabs_R0. ring. }
  rewrite E. replace (1 / w * M i i - M i i) with (1 / w * ((1 - w) * M i i)) by (field; lra).
  rewrite !Rabs_mult, (Rabs_pos_eq (1 / w)) by lra. unfold sor_rate.
  replace ((Rabs (1 - w) + w * q) * (1 / w * Rabs (M i i))) with (1 / w * (Rabs (1 - w) * Rabs (M i i)) + q * Rabs (M i i)) by (field; lra). lra.
Qed.
Lemma sor_rate_ok w : 0 < w -> sor_rate w < 1 -> 0 <= sor_rate w < 1.
Proof. intros W H. split; auto. unfold sor_rate. pose proof (Rabs_pos (1 - w)). destruct Hq as ((Q & _) & _). nra. Qed.

Lemma sor_solve_run c : s_lib c = 0%nat -> s_method c = 0%nat -> 0 < s_omega c -> sor_rate (s_omega c) < 1 ->
  exists o, sor_solve c A lower pc_none x b li lr = Ok o /\
    run_ok c n M lo1 (fun i => 1 / s_omega c * M i i) (sor_rate (s_omega c)) b 0 (s_maxiter c) x (1 / norm2 n (fn b)) o.
Proof.
  intros Hl Hm W1 W2. unfold sor_solve. rewrite Hl. unfold monolish_sor.
  pose proof HA as (R1 & R2 & R3). rewrite R1, R2, Nat.eqb_refl. cbn [require_ bind].
  assert (Hz : length (repeat (@f0 R Rscalar) n) = n) by now rewrite repeat_length.
  destruct (HD _ Hz) as (d & -> & Hd & Hdi). cbn [bind].
  rewrite (@v_recip_ok R Rscalar n) by (unfold v_scal; rewrite ?map_length; auto). cbn [bind].
  rewrite (@v_nrm2_exact R Rscalar R_exact n) by auto. cbn [bind].
  unfold pc_none. cbn [bind]. set (d' := map (fun v => fdiv f1 v) _).
  assert (Hd' : length d' = n) by (unfold d', v_scal; now rewrite !map_length).
  apply (@sor_run c A n M lo1 (fun i => 1 / s_omega c * M i i) (sor_rate (s_omega c)) b HA Hm Hb (sor_rate_ok W1 W2) lo1_lower (sor_cond W1)); auto.
  - pose proof (@norm_b_pos n b Hb0). cbn [fdiv f1 Rscalar]. apply Rlt_le, Rdiv_lt_0_compat; lra.
  - intros r z H1 H2. apply (@v_copy_ok R n); auto.
  - intros i Hi. unfold fn, d', v_scal. rewrite map_map.
    rewrite nth_indep with (d' := 1 / (1 / s_omega c * 0)) by (rewrite map_length; lia).
    cbn [fdiv fmul f1 Rscalar]. rewrite (map_nth (fun v => 1 / (1 / s_omega c * v))). f_equal. f_equal. apply Hdi. auto.
Qed.

(** SUCCESS for every relaxation factor with |1-w| + w q < 1 (all of 0 < w <= 1, and w < 2/(1+q)) *)
Theorem C99_sor_converges c : s_lib c = 0%nat -> s_method c = 0%nat -> 0 < s_tol c -> 0 < s_omega c -> Rabs (1 - s_omega c) + s_omega c * q < 1 ->
  converges (fun c => sor_solve c A lower pc_none x b li lr) c.
Proof.
  intros Hl Hm Ht W1 W2. set (w := s_omega c) in *.
  destruct (@Hlow (map (fun i => 1 / (1 / w * M i i)) (seq 0 n)) x (map (fun i => residual n M x b i) (seq 0 n))) as (t & _ & Lt & HT);
    try (rewrite map_length, seq_length); auto.
  apply (@run_converges (fun c => sor_solve c A lower pc_none x b li lr) c n M lo1 (fun i => 1 / w * M i i) (sor_rate w) b x (1 / norm2 n (fn b)) t); auto.
  - now apply sor_rate_ok.
  - exact lo1_lower.
  - intros i Hi. apply (@sor_cond w W1 i Hi).
  - intros i Hi. unfold Pu. destruct (@sor_cond w W1 i Hi) as (P0 & _).
    rewrite (@Sm_ext n _ (fun j => if (j <? i)%nat then M i j * fn t j else 0)) by (intros j Hj; unfold lo1; destruct (j <? i)%nat; ring).
    rewrite Sm_prefix by lia. pose proof (HT i Hi) as G. unfold fn at 2 4 in G. rewrite !nth_map_seq in G by auto. cbn [Nat.add fmul fsub Rscalar] in G.
    rewrite G. cbn [fmul Rscalar]. field. assert (M i i <> 0) by (apply Hq; auto). split; lra.
  - apply (@sor_limit R Rscalar); auto.
  - intros m. apply (@sor_solve_run (with_maxiter c m)); auto.
Qed.
Theorem C99_sor_error c : s_lib c = 0%nat -> s_method c = 0%nat -> 0 < s_omega c -> Rabs (1 - s_omega c) + s_omega c * q < 1 ->
  exists o, sor_solve c A lower pc_none x b li lr = Ok o /\
    forall xs E, solution n M b xs -> within n E (fun i => fn x i - xs i) ->
      within n ((Rabs (1 - s_omega c) + s_omega c * q) ^ o_iter o * E) (fun i => fn (o_x o) i - xs i).
Proof.
  intros Hl Hm W1 W2. destruct (@sor_solve_run c Hl Hm W1 W2) as (o & E & _ & _ & H & _). exists o. split; auto. intros xs D H1 H2.
  pose proof (H xs D H1 H2) as G. now rewrite Nat.sub_0_r in G.
Qed.
End SOR.
(** the admissible relaxation factors *)
Theorem C99_relaxation q w : 0 <= q < 1 -> 0 < w < 2 / (1 + q) -> Rabs (1 - w) + w * q < 1.
Proof.
  intros Q (W1 & W2). assert (W3 : w * (1 + q) < 2). { apply Rmult_lt_compat_r with (r := 1 + q) in W2; [|lra]. unfold Rdiv in W2. rewrite Rmult_assoc, Rinv_l in W2 by lra. lra. }
  unfold Rabs. destruct (Rcase_abs _); nra.
Qed.

(** ** a concrete case: [[4,1],[2,5]], q = 1/2, b = (6,12), x0 = 0, tol = 1/1000, w = 1 *)
Definition cvA : dense R := mkDense 2 2 [4; 1; 2; 5] 0 4 4 true.
Definition cvC : cfg (F:=R) := mkCfg 0 (1 / 1000) 0 5 0 1.
Lemma cv_facts : represents (dense_if cvA) 2 (dense_fn cvA) /\ has_diag (dense_if cvA) 2 (dense_fn cvA) /\ dominant 2 (dense_fn cvA) (1 / 2) /\
  (forall d t r, length d = 2%nat -> length t = 2%nat -> length r = 2%nat ->
     exists t', sor_lower_dense cvA d t r = Ok t' /\ length t' = 2%nat /\ solves_lower 2 (dense_fn cvA) d r t').
Proof.
  assert (W : dense_ok cvA) by (repeat split; cbn; auto; lia).
  destruct (@C34_formats R Rscalar 2 R_exact) as (_ & H1 & _). destruct (@C35_formats R Rscalar 2 R_exact) as (H2 & _).
  specialize (H1 cvA W eq_refl eq_refl). destruct (H2 cvA W eq_refl eq_refl eq_refl) as (H3 & H4).
  split; auto. split; auto. split; auto. split; [lra|]. intros i Hi.
  destruct i as [|[|i]]; [| |lia]; unfold offdiag, sum_n, dense_fn; cbn -[Rabs Rplus Rmult]; rewrite !Rabs_pos_eq by lra; lra.
Qed.
Theorem C98_example : converges (fun c => jacobi_solve c (dense_if cvA) pc_none [0; 0] [6; 12] 0 0) cvC.
Proof.
  destruct cv_facts as (H1 & H2 & H3 & _). apply (@C98_jacobi_converges (dense_if cvA) 2 (dense_fn cvA) (1 / 2)); auto; try (cbn; lra).
  - apply (@C34_formats R Rscalar 2 R_exact).
  - exists 0%nat. split; [lia|]. cbn. lra.
Qed.
Theorem C99_example : converges (fun c => sor_solve c (dense_if cvA) (sor_lower_dense cvA) pc_none [0; 0] [6; 12] 0 0) cvC.
Proof.
  destruct cv_facts as (H1 & H2 & H3 & H4). apply (@C99_sor_converges (dense_if cvA) 2 (dense_fn cvA) (1 / 2)); auto; try (cbn; lra).
  - exists 0%nat. split; [lia|]. cbn. lra.
  - cbn. rewrite Rminus_diag_eq, Rabs_R0 by reflexivity. lra.
Qed.
(** b = 0 is excluded because double precision divides by its norm: x = 0 is the solution, yet the solver reports a NaN residual *)
#[local] Hint Extern 0 (Scalar b64) => exact b64scalar : typeclass_instances.
Definition zb : list b64 := [b64_of_Z 0; b64_of_Z 0].
Theorem C98_zero_rhs : exists A o1 o2, dense_of_array 2 2 (map b64_of_Z [4; 1; 2; 5]%Z) = Ok A /\
  jacobi_solve bcfg (dense_if A) pc_none zb zb 0 (b64_of_Z 0) = Ok o1 /\ o_code o1 = RESIDUAL_NAN /\
  sor_solve bcfg (dense_if A) (sor_lower_dense A) pc_none zb zb 0 (b64_of_Z 0) = Ok o2 /\ o_code o2 = RESIDUAL_NAN.
Proof. do 3 eexists. split; [vm_compute; reflexivity|]. repeat split; vm_compute; reflexivity. Qed.

Print Assumptions C98_jacobi_converges.
Print Assumptions C98_jacobi_error.
Print Assumptions C98_jacobi_final_resid.
Print Assumptions C98_zero_rhs.
Print Assumptions C99_sor_converges.
Print Assumptions C99_sor_error.
Print Assumptions C99_relaxation.
