(** * PropertiesEnergy3: C116, Jacobi on symmetric matrices (real arithmetic): it converges whenever A and 2 D - A are positive (semi)definite. *)
From Coq Require Import Reals Psatz Lra.
From Verif Require Import Base Scalar Spec SumFacts DenseModel CooModel Observe CrsModel CrsObserve SolverModel SolverSpec EigModel
  SolverProof SolverProof2 SolverSorProof PropertiesSolver ConvSpec ConvProof CrsSimProof EnergySpec EnergyProof PropertiesEnergy EnergyProof4.
Set Implicit Arguments.
Local Open Scope R_scope.
#[local] Hint Extern 0 (Scalar R) => exact Rscalar : typeclass_instances.

(** ** specification: the matrix 2 D - M, D the diagonal of M, and uniform positive definiteness *)
Definition twice_diag_minus (M : nat -> nat -> R) (i j : nat) : R := (if (i =? j)%nat then 2 * M i i else 0) - M i j.
Definition pos_def (n : nat) (M : nat -> nat -> R) : Prop :=
  exists mu, 0 < mu /\ forall t, mu * sum_n n (fun i => t i * t i) <= quad n M t.

Section Jacobi.
Variables (A : matif (F:=R)) (n : nat) (M : nat -> nat -> R) (pre : precond (F:=R)) (x b : list R) (li : nat) (lr : R).
Hypothesis HA : represents A n M.
Hypothesis HD : has_diag A n M.
Hypothesis Hpre : pre_ok A n pre.
Hypothesis Hsym : symmetric n M.
Hypothesis Hd : forall i, (i < n)%nat -> M i i <> 0.
Hypothesis Hx : length x = n.
Hypothesis Hb : length b = n.
Hypothesis Hb0 : exists i, (i < n)%nat /\ fn b i <> 0.
Variable xs : nat -> R.
Hypothesis Hs : solution n M b xs.
Hypothesis HP : psd n M.

Lemma jacobi_solve_en c dec : s_lib c = 0%nat -> s_method c = 0%nat ->
  (forall t, 0 <= jgain n M t) -> 0 < dec ->
  exists o, jacobi_solve c A pre x b li lr = Ok o /\ length (o_x o) = n /\ energy n M xs (o_x o) <= energy n M xs x /\
    ((forall t, s_tol c <= norm2 n (fun i => M i i * t i) * (1 / norm2 n (fn b)) -> dec <= jgain n M t) ->
     forall K, (K < s_maxiter c)%nat -> energy n M xs x < INR (K + 1 - (s_miniter c - 1)) * dec -> o_code o = SUCCESS /\ (o_iter o <= K + 1)%nat).
Proof.
  intros Hl Hm Hg D0. destruct Hpre as (f & Ef & Hf). unfold jacobi_solve. rewrite Hl. unfold monolish_jacobi.
  pose proof HA as (R1 & R2 & R3). rewrite R1, R2, Nat.eqb_refl. cbn [require_ bind].
  rewrite (@v_nrm2_exact R Rscalar R_exact n) by auto. cbn [bind].
  assert (Hz : length (repeat (@f0 R Rscalar) n) = n) by now rewrite repeat_length.
  destruct (HD _ Hz) as (d & -> & Hdl & Hdi). cbn [bind].
  rewrite (@v_recip_ok R Rscalar n) by auto. cbn [bind]. rewrite Ef. cbn [bind].
  set (d' := map (fun v => fdiv f1 v) d).
  assert (Ld : length d' = n) by (unfold d'; now rewrite map_length).
  assert (Di : forall i, (i < n)%nat -> fn d' i = 1 / M i i).
  { intros i Hi. unfold fn, d'. rewrite nth_indep with (d' := 1 / 0) by (rewrite map_length; lia). cbn [fdiv f1 Rscalar].
    rewrite (map_nth (fun v => 1 / v)). f_equal. apply Hdi. auto. }
  pose proof (@jac_run_en n M b xs Hsym Hs Hd c A f d' (1 / norm2 n (fn b)) HA Hm Hb Hf Ld Di dec (s_maxiter c) (s_maxiter c) Hg HP D0
    0 x (repeat 0 n) (repeat 0 n) (repeat 0 n) Hx Hz Hz Hz) as (o & E & L & H1 & H2).
  replace (with_maxiter c (s_maxiter c)) with c in E by (destruct c; reflexivity).
  exists o. split; [exact E|]. split; auto. split; auto. intros Hdec K HK HS. apply H2; [exact Hdec|lia|]. now rewrite Nat.max_0_l.
Qed.

Theorem C116_jacobi_converges c : s_lib c = 0%nat -> s_method c = 0%nat -> 0 < s_tol c -> pos_def n (twice_diag_minus M) ->
  converges (fun c => jacobi_solve c A pre x b li lr) c.
Proof.
  intros Hl Hm Ht (mu & M0 & HG).
  assert (HG' : forall t, mu * Sm n (fun i => t i * t i) <= jgain n M t) by (intros t; rewrite jgain_quad; apply HG).
  assert (B0 : 0 < 1 / norm2 n (fn b)) by (apply Rdiv_lt_0_compat; [lra|now apply norm_b_pos]).
  destruct (@jgain_bound n M (1 / norm2 n (fn b)) mu (s_tol c) M0 HG' Ht B0) as (dec & D0 & Hdec).
  assert (Hg : forall t, 0 <= jgain n M t).
  { intros t. eapply Rle_trans; [|apply HG']. apply Rmult_le_pos; [lra|]. apply Sm_pos. intros; apply Rle_0_sqr. }
  destruct (archimed (energy n M xs x / dec)) as (Ar & _).
  assert (En : 0 <= energy n M xs x) by apply HP.
  set (N := Z.to_nat (up (energy n M xs x / dec))).
  assert (EN : energy n M xs x < INR N * dec).
  { assert (Q : 0 <= energy n M xs x / dec) by (unfold Rdiv; apply Rmult_le_pos; auto; apply Rlt_le, Rinv_0_lt_compat; auto).
    assert (U : (0 <= up (energy n M xs x / dec))%Z) by (apply le_IZR; lra).
    unfold N. rewrite INR_IZR_INZ, Z2Nat.id by auto. apply Rmult_lt_compat_r with (r := dec) in Ar; auto.
    replace (energy n M xs x / dec * dec) with (energy n M xs x) in Ar by (field; lra). lra. }
  assert (N0 : (0 < N)%nat) by (destruct N; [cbn [INR] in EN; lra|lia]).
  set (K := (N - 1 + (s_miniter c - 1))%nat).
  destruct (@jacobi_solve_en (with_maxiter c (K + 1)) dec) as (o & E & _ & _ & HS); auto.
  destruct (HS Hdec K) as (Hc & Hi).
  - cbn [s_maxiter with_maxiter]. lia.
  - cbn [s_miniter with_maxiter]. replace (K + 1 - (s_miniter c - 1))%nat with N by (unfold K; lia). auto.
  - exists o, (K + 1)%nat. split; auto. split; auto. intros m Hmm.
    destruct (@jacobi_limit R Rscalar A pre x b li lr c Hl Hm (K + 1)%nat o E) as (_ & H); [rewrite Hc; discriminate|].
    apply (H m). lia.
Qed.

(** the error in the energy norm never grows, whatever the outcome, already when 2 D - A is positive semidefinite *)
Theorem C116_energy c : s_lib c = 0%nat -> s_method c = 0%nat -> psd n (twice_diag_minus M) ->
  exists o, jacobi_solve c A pre x b li lr = Ok o /\ length (o_x o) = n /\ energy n M xs (o_x o) <= energy n M xs x.
Proof.
  intros Hl Hm HG. destruct (@jacobi_solve_en c 1) as (o & E & L & H & _); auto; [|lra|eauto].
  intros t. rewrite jgain_quad. apply HG.
Qed.
End Jacobi.

(** the same for Dense and CRS objects *)
Section Objects.
Variables (n : nat) (x b : list R) (li : nat) (lr : R) (xs : nat -> R) (c : cfg (F:=R)).
Hypothesis Hx : length x = n.
Hypothesis Hb : length b = n.
Hypothesis Hb0 : exists i, (i < n)%nat /\ fn b i <> 0.
Hypothesis Hl : s_lib c = 0%nat.
Hypothesis Hm : s_method c = 0%nat.
Hypothesis Ht : 0 < s_tol c.
Definition jgood (M : nat -> nat -> R) : Prop :=
  symmetric n M /\ psd n M /\ pos_def n (twice_diag_minus M) /\ (forall i, (i < n)%nat -> M i i <> 0) /\ solution n M b xs.

Theorem C116_jacobi_dense (A : dense R) : dense_ok A -> d_first A = 0%nat -> d_row A = n -> d_col A = n -> jgood (dense_fn A) ->
  converges (fun c => jacobi_solve c (dense_if A) pc_none x b li lr) c.
Proof.
  intros W F0 R0 C0 (G1 & G2 & G3 & G4 & G5).
  destruct (@C34_formats R Rscalar n R_exact) as (_ & H1 & HN & _). destruct (@C35_formats R Rscalar n R_exact) as (H2 & _).
  destruct (H2 A W F0 R0 C0) as (H3 & H4). apply (@C116_jacobi_converges (dense_if A) n (dense_fn A)) with (xs := xs); auto.
Qed.
Theorem C116_jacobi_crs (A : crs R) : crs_ok A -> m_first A = 0%nat -> m_row A = n -> m_col A = n -> nodup_pos (crs_entries A) ->
  (forall i, (i < n)%nat -> increasing (crs_row A i)) -> jgood (summed (crs_entries A)) ->
  converges (fun c => jacobi_solve c (crs_if A) pc_none x b li lr) c.
Proof.
  intros W F0 R0 C0 N0 I0 (G1 & G2 & G3 & G4 & G5).
  destruct (@C34_formats R Rscalar n R_exact) as (H1 & _ & HN & _). destruct (@C35_formats R Rscalar n R_exact) as (_ & H2).
  destruct (H2 A W F0 R0 C0 N0 I0) as (H3 & H4). apply (@C116_jacobi_converges (crs_if A) n (summed (crs_entries A))) with (xs := xs); auto.
  apply H1; auto. now apply crs_ok_readable.
Qed.
End Objects.

(** ** a concrete case that is not diagonally dominant (en_good): [[1,2],[2,5]], b = (1,2), x0 = (0,0) *)
Lemma ej_good : jgood 2 [1; 2] (fun i => if (i =? 0)%nat then 1 else 0) (dense_fn enA).
Proof.
  destruct en_good as ((G1 & G2 & G3 & G4) & _). split; auto. split; auto. split; [|split; auto].
  - exists (1 / 10). split; [lra|]. intros t. unfold quad, mv, sum_n, twice_diag_minus, dense_fn. cbn -[Rplus Rmult Rle Rdiv Rminus].
    pose proof (Rle_0_sqr (9 * t 0%nat - 20 * t 1%nat)) as H1. pose proof (Rle_0_sqr (t 1%nat)) as H2. unfold Rsqr in *. nra.
  - intros i Hi. apply Rgt_not_eq, G3. auto.
Qed.
Theorem C116_example : converges (fun c => jacobi_solve c (dense_if enA) pc_none [0; 0] [1; 2] 0 0) enC.
Proof.
  apply (@C116_jacobi_dense 2 [0; 0] [1; 2] 0 0 (fun i => if (i =? 0)%nat then 1 else 0) enC); auto; try (cbn; lra).
  - exists 0%nat. split; [lia|]. cbn. lra.
  - repeat split; cbn; auto; lia.
  - exact ej_good.
Qed.

(** ** the condition on 2 D - A cannot be dropped: a symmetric positive definite matrix on which the error grows by 8/5 in every iteration *)
Definition divA : dense R := mkDense 3 3 [5; 4; 4; 4; 5; 4; 4; 4; 5] 0 9 9 true.
Definition divM := dense_fn divA.
Definition divB : list R := [13; 13; 13].
Lemma div_spd : symmetric 3 divM /\ pos_def 3 divM /\ solution 3 divM divB (fun _ => 1) /\ forall i, (i < 3)%nat -> divM i i = 5.
Proof.
  split; [|split; [|split]].
  - intros i j Hi Hj. destruct i as [|[|[|i]]], j as [|[|[|j]]]; try lia; reflexivity.
  - exists 1. split; [lra|]. intros t. unfold quad, mv, sum_n, divM, dense_fn. cbn -[Rplus Rmult Rle].
    pose proof (Rle_0_sqr (t 0%nat + t 1%nat + t 2%nat)) as H. unfold Rsqr in H. nra.
  - intros i Hi. destruct i as [|[|[|i]]]; [| | |lia]; unfold mv, sum_n, divM, dense_fn; cbn; lra.
  - intros i Hi. destruct i as [|[|[|i]]]; [| | |lia]; unfold divM, dense_fn; cbn; lra.
Qed.
Definition level (x : list R) (s : R) : Prop := length x = 3%nat /\ forall i, (i < 3)%nat -> fn x i = 1 + s.
Lemma div_resid x s i : level x s -> (i < 3)%nat -> residual 3 divM x divB i = -13 * s.
Proof.
  intros (L & H) Hi. unfold residual, mv, sum_n. cbn -[Rplus Rmult Rminus divM fn]. rewrite !H by lia. unfold divM, dense_fn.
  destruct i as [|[|[|i]]]; [| | |lia]; cbn; ring.
Qed.
Lemma norm_level r v : (forall i, (i < 3)%nat -> fn r i = v) -> norm2 3 (fn r) = Rabs v * sqrt 3.
Proof.
  intros H. unfold norm2, sum_n. cbn -[Rplus Rmult fn]. rewrite !H by lia.
  replace (0 + v * v + v * v + v * v) with (v * v * 3) by ring. rewrite sqrt_mult_alt by apply Rle_0_sqr. f_equal. apply sqrt_Rsqr_abs.
Qed.

Lemma div_run c f d m : s_method c = 0%nat -> s_tol c <= 1 -> (forall r z, length r = 3%nat -> length z = 3%nat -> exists z', f r z = Ok z' /\ length z' = 3%nat) ->
  length d = 3%nat -> (forall i, (i < 3)%nat -> fn d i = 1 / divM i i) ->
  forall k iter x r t s e, level x e -> 1 <= Rabs e -> length r = 3%nat -> length t = 3%nat -> length s = 3%nat ->
  exists o, jacobi_loop (with_maxiter c m) (dense_if divA) f divB d (1 / norm2 3 (fn divB)) k iter x r t s = Ok o /\ o_code o = MAXITER.
Proof.
  intros Hm Ht Hf Ld Di. destruct div_spd as (S1 & S2 & S3 & S4).
  assert (HA : represents (dense_if divA) 3 divM).
  { destruct (@C34_formats R Rscalar 3 R_exact) as (_ & H1 & _). apply H1; auto. repeat split; cbn; auto; lia. }
  induction k as [|k IH]; intros iter x r t s e HL He Hr Hti Hs'.
  - cbn [jacobi_loop]. unfold get_residual. change (s_method (with_maxiter c m)) with (s_method c). rewrite Hm, (@v_nrm2_exact R Rscalar R_exact 3) by auto. cbn [bind].
    eexists; split; reflexivity.
  - assert (Lx : length x = 3%nat) by apply HL.
    assert (D0 : forall i, (i < 3)%nat -> divM i i <> 0) by (intros i Hi; rewrite S4 by auto; lra).
    destruct (@jac_one 3 divM divB D0 c (dense_if divA) f d (1 / norm2 3 (fn divB)) HA Hm eq_refl Hf Ld Di iter x r t s Lx Hr Hti Hs')
      as (x' & r' & t' & s' & u & Lx' & Lr' & Lt' & Ls' & Lu & HC & HM & HR & EQ). rewrite EQ.
    assert (NB : norm2 3 (fn divB) = 13 * sqrt 3).
    { rewrite (@norm_level divB 13); [rewrite Rabs_pos_eq by lra; reflexivity|]. intros i Hi. destruct i as [|[|[|i]]]; [| | |lia]; reflexivity. }
    assert (Q3 : 0 < sqrt 3) by (apply sqrt_lt_R0; lra).
    assert (NR : norm2 3 (fn r') * (1 / norm2 3 (fn divB)) = Rabs e).
    { rewrite NB, (@norm_level r' (-13 * e)) by (intros i Hi; rewrite HR by auto; now apply div_resid).
      rewrite Rabs_mult. replace (Rabs (-13)) with 13 by (rewrite Rabs_left by lra; ring). field. lra. }
    cbn [fmul Rscalar] in EQ |- *. rewrite NR. cbn [fltb Rscalar]. destruct (Rlt_dec (Rabs e) (s_tol c)) as [G|_]; [lra|]. cbn [andb].
    apply (IH (S iter) x' u t' s' (- (8 / 5) * e)); auto.
    + split; auto. intros i Hi. rewrite HM by auto. destruct HL as (_ & HL). rewrite HL by auto.
      assert (U : 5 * fn u i = -13 * e) by (rewrite <- (S4 i) by auto; rewrite (HC i Hi); apply div_resid; auto; split; auto). lra.
    + rewrite Rabs_mult, Rabs_left by lra. lra.
Qed.
(** the solver started in 0 never reports SUCCESS, for every limit, minimum number of iterations and tolerance up to 1 *)
Theorem C116_condition_needed c m li lr : s_lib c = 0%nat -> s_method c = 0%nat -> s_tol c <= 1 ->
  symmetric 3 (dense_fn divA) /\ pos_def 3 (dense_fn divA) /\ solution 3 (dense_fn divA) divB (fun _ => 1) /\
  exists o, jacobi_solve (with_maxiter c m) (dense_if divA) pc_none [0; 0; 0] divB li lr = Ok o /\ o_code o = MAXITER.
Proof.
  intros Hl Hm Ht. destruct div_spd as (S1 & S2 & S3 & S4). split; auto. split; auto. split; auto.
  destruct (@C34_formats R Rscalar 3 R_exact) as (_ & H1 & HN & _). destruct (@C35_formats R Rscalar 3 R_exact) as (H2 & _).
  assert (W : dense_ok divA) by (repeat split; cbn; auto; lia).
  destruct (H1 divA W) as (R1 & R2 & R3); auto. destruct (H2 divA W eq_refl eq_refl eq_refl) as (HD & _).
  destruct (HN (dense_if divA)) as (f & Ef & Hf).
  unfold jacobi_solve. change (s_lib (with_maxiter c m)) with (s_lib c). rewrite Hl. unfold monolish_jacobi.
  rewrite R1, R2, Nat.eqb_refl. cbn [require_ bind].
  rewrite (@v_nrm2_exact R Rscalar R_exact 3) by auto. cbn [bind].
  assert (Hz : length (repeat (@f0 R Rscalar) 3) = 3%nat) by now rewrite repeat_length.
  destruct (HD _ Hz) as (d & Ed & Hdl & Hdi). rewrite Ed. cbn [bind].
  rewrite (@v_recip_ok R Rscalar 3) by auto. cbn [bind]. rewrite Ef. cbn [bind].
  apply (@div_run c f (map (fun v => fdiv f1 v) d) m Hm Ht Hf) with (e := -1); auto.
  - now rewrite map_length.
  - intros i Hi. unfold fn. rewrite nth_indep with (d' := 1 / 0) by (rewrite map_length; lia). cbn [fdiv f1 Rscalar].
    rewrite (map_nth (fun v => 1 / v)). f_equal. apply Hdi. auto.
  - split; auto. intros i Hi. destruct i as [|[|[|i]]]; [| | |lia]; unfold fn; cbn; lra.
  - rewrite Rabs_left by lra. lra.
Qed.

Print Assumptions C116_jacobi_converges.
Print Assumptions C116_energy.
Print Assumptions C116_jacobi_dense.
Print Assumptions C116_jacobi_crs.
Print Assumptions C116_example.
Print Assumptions C116_condition_needed.
