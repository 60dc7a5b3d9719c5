(** * PropertiesEnergy2: C115, stopping CG or SOR early never leaves a worse vector than stopping even earlier
    (real arithmetic). *)
From Coq Require Import Reals Psatz Lra.
From Verif Require Import Base Scalar Spec SumFacts DenseModel CooModel Observe CrsModel CrsObserve SolverModel SolverSpec EigModel
  SolverProof SolverProof2 SolverSorProof PropertiesSolver ConvSpec ConvProof EnergySpec EnergyProof EnergyProof2 EnergyProof3 PropertiesEnergy.
Set Implicit Arguments.
Local Open Scope R_scope.
#[local] Hint Extern 0 (Scalar R) => exact Rscalar : typeclass_instances.

(** ** Specification: with a limit m2 >= m1 the answer is at least as good as with m1, and never worse than the start *)
Definition improves (E : list R -> R) (x : list R) (solve : nat -> res (outcome (F:=R))) : Prop :=
  forall m1 m2, (m1 <= m2)%nat -> exists o1 o2, solve m1 = Ok o1 /\ solve m2 = Ok o2 /\ E (o_x o2) <= E (o_x o1) <= E x.

Section CG.
Variables (A : matif (F:=R)) (n : nat) (M : nat -> nat -> R) (pre : precond (F:=R)) (x b : list R) (li : nat) (lr : R) (c : cfg (F:=R)) (xs : nat -> R).
Hypothesis HA : represents A n M.
Hypothesis Hsym : symmetric n M.
Hypothesis Hpsd : psd n M.
Hypothesis Hx : length x = n.
Hypothesis Hb : length b = n.
Hypothesis Hs : solution n M b xs.
Hypothesis Hl : s_lib c = 0%nat.
Hypothesis Hm : s_method c = 0%nat.

(** any preconditioner that returns vectors of the right length, good or bad *)
Theorem C115_cg : pre_ok A n pre ->
  improves (energy n M xs) x (fun m => cg_solve (with_maxiter c m) A pre x b li lr).
Proof.
  intros (pf & Ep & HP) m1 m2 Hmm. unfold cg_solve. cbn [s_lib with_maxiter]. rewrite Hl. unfold monolish_cg.
  pose proof HA as (R1 & R2 & R3). rewrite R1, R2, Nat.eqb_refl. cbn [require_ bind]. rewrite Ep. cbn [bind].
  assert (Hz : length (repeat (@f0 R Rscalar) n) = n) by now rewrite repeat_length.
  destruct (R3 x (repeat f0 n) Hx Hz) as (q & -> & Hq & HQ). cbn [bind].
  rewrite (@v_sub_ok R Rscalar n) by auto. cbn [bind].
  set (r := zipw fsub b q). assert (Hr : length r = n) by (unfold r; now rewrite zipw_length).
  destruct (HP r (repeat f0 n) Hr Hz) as (z & -> & Lz). cbn [bind]. rewrite !(@v_copy_ok R n) by auto. cbn [bind].
  destruct (@cg_loop_mono n M b xs Hsym Hpsd Hs c A pf HA HP Hm m1 m2 m1 m2 0 x r z q z) as (o1 & o2 & E1 & E2 & _ & G & _); auto.
  { split; auto. intros i Hi. unfold r. rewrite zipw_fn by lia. rewrite HQ by auto. reflexivity. }
  exists o1, o2. split; [exact E1|]. split; [exact E2|]. exact G.
Qed.

(** without preconditioner one iteration is enough to be strictly better, unless x already solves the system *)
Theorem C115_cg_strict : (1 <= s_maxiter c)%nat -> (exists i, (i < n)%nat /\ residual n M x b i <> 0) ->
  exists o, cg_solve c A pc_none x b li lr = Ok o /\ energy n M xs (o_x o) < energy n M xs x.
Proof.
  intros Hk (i0 & Hi0 & Ni0). unfold cg_solve. rewrite Hl. unfold monolish_cg, pc_none.
  pose proof HA as (R1 & R2 & R3). rewrite R1, R2, Nat.eqb_refl. cbn [require_ bind].
  assert (Hz : length (repeat (@f0 R Rscalar) n) = n) by now rewrite repeat_length.
  destruct (R3 x (repeat f0 n) Hx Hz) as (q & -> & Hq & HQ). cbn [bind].
  rewrite (@v_sub_ok R Rscalar n) by auto. cbn [bind].
  set (r := zipw fsub b q). assert (Hr : length r = n) by (unfold r; now rewrite zipw_length).
  rewrite (@v_copy_ok R n) by auto. cbn [bind]. rewrite (@v_copy_ok R n) by auto. cbn [bind].
  assert (RR : forall i, (i < n)%nat -> fn r i = residual n M x b i).
  { intros i Hi. unfold r. rewrite zipw_fn by lia. rewrite HQ by auto. reflexivity. }
  destruct (@cg_loop_mono n M b xs Hsym Hpsd Hs c A v_copy HA) with (m1 := s_maxiter c) (m2 := s_maxiter c) (k1 := s_maxiter c) (k2 := s_maxiter c)
    (iter := 0%nat) (x := x) (r := r) (p := r) (q := q) (z := r) as (o1 & o2 & E1 & E2 & _ & _ & G); auto.
  { intros r0 z0 H1 H2. exists r0. split; auto. now apply (@v_copy_ok R n). }
  { split; auto. }
  exists o1. replace (with_maxiter c (s_maxiter c)) with c in E1 by (destruct c; reflexivity). split; [exact E1|]. apply G; [lia|].
  assert (P : 0 < fn r i0 * fn r i0) by (rewrite RR by auto; apply (Rsqr_pos_lt _ Ni0)).
  assert (Q : fn r i0 * fn r i0 <= @dotp R Rscalar n (fn r) (fn r)).
  { apply (@Sm_one n (fun i => fn r i * fn r i)); auto. intros. apply Rle_0_sqr. }
  lra.
Qed.
End CG.

Section SOR.
Variables (A : matif (F:=R)) (n : nat) (M : nat -> nat -> R) (lower : list R -> list R -> list R -> res (list R)) (x b : list R) (li : nat) (lr : R) (c : cfg (F:=R)) (xs : nat -> R).
Hypothesis HA : represents A n M.
Hypothesis HD : has_diag A n M.
Hypothesis Hlow : forall d t r, length d = n -> length t = n -> length r = n ->
  exists t', lower d t r = Ok t' /\ length t' = n /\ solves_lower n M d r t'.
Hypothesis Hsym : symmetric n M.
Hypothesis Hd : forall i, (i < n)%nat -> 0 < M i i.
Hypothesis Hx : length x = n.
Hypothesis Hb : length b = n.
Hypothesis Hs : solution n M b xs.
Hypothesis Hl : s_lib c = 0%nat.
Hypothesis Hm : s_method c = 0%nat.

Theorem C115_sor : 0 < s_omega c <= 2 -> improves (energy n M xs) x (fun m => sor_solve (with_maxiter c m) A lower pc_none x b li lr).
Proof.
  intros W m1 m2 Hmm. unfold sor_solve. cbn [s_lib with_maxiter]. rewrite Hl. unfold monolish_sor. cbn [s_omega with_maxiter].
  pose proof HA as (R1 & R2 & R3). rewrite R1, R2, Nat.eqb_refl. cbn [require_ bind].
  assert (Hz : length (repeat (@f0 R Rscalar) n) = n) by now rewrite repeat_length.
  destruct (HD _ Hz) as (d & -> & Hdl & Hdi). cbn [bind].
  rewrite (@v_recip_ok R Rscalar n) by (unfold v_scal; rewrite ?map_length; auto). cbn [bind].
  rewrite (@v_nrm2_exact R Rscalar R_exact n) by auto. cbn [bind].
  unfold pc_none. cbn [bind]. set (d' := map (fun v => fdiv f1 v) _).
  assert (Hd' : length d' = n) by (unfold d', v_scal; now rewrite !map_length).
  destruct (@sor_loop_mono n M (s_omega c) b xs Hsym W Hs c A lower d' (fdiv f1 (norm2 n (fn b))) HA Hm Hb Hd (fun t r => @Hlow d' t r Hd')) with
    (m1 := m1) (m2 := m2) (k1 := m1) (k2 := m2) (iter := 0%nat) (x := x) (r := repeat (@f0 R Rscalar) n) (t := repeat (@f0 R Rscalar) n) (s := repeat (@f0 R Rscalar) n)
    as (o1 & o2 & E1 & E2 & _ & G); auto.
  - intros i Hi. unfold fn, d', v_scal. rewrite map_map.
    rewrite nth_indep with (d' := 1 / (1 / s_omega c * 0)) by (rewrite map_length; lia).
    cbn [fdiv fmul f1 Rscalar]. rewrite (map_nth (fun v => 1 / (1 / s_omega c * v))). unfold ep. f_equal. f_equal. apply Hdi. auto.
  - exists o1, o2. split; [exact E1|]. split; [exact E2|]. exact G.
Qed.
End SOR.

(** a concrete case: the matrix of C114_example; CG with the Jacobi preconditioner *)
Theorem C115_example :
  improves (energy 2 (dense_fn enA) (fun i => if (i =? 0)%nat then 1 else 0)) [0; 0] (fun m => cg_solve (with_maxiter enC m) (dense_if enA) pc_jacobi [0; 0] [1; 2] 0 0) /\
  improves (energy 2 (dense_fn enA) (fun i => if (i =? 0)%nat then 1 else 0)) [0; 0] (fun m => sor_solve (with_maxiter enC m) (dense_if enA) (sor_lower_dense enA) pc_none [0; 0] [1; 2] 0 0).
Proof.
  destruct en_good as ((G1 & G2 & G3 & G4) & _).
  assert (W : dense_ok enA) by (repeat split; cbn; auto; lia).
  destruct (@C34_formats R Rscalar 2 R_exact) as (_ & H1 & _ & H5 & _). destruct (@C35_formats R Rscalar 2 R_exact) as (H2 & _).
  specialize (H1 enA W eq_refl eq_refl). destruct (H2 enA W eq_refl eq_refl eq_refl) as (H3 & H4).
  split.
  - apply C115_cg; auto. apply (H5 _ (dense_fn enA)); auto.
  - apply C115_sor; auto. cbn. lra.
Qed.

Print Assumptions C115_cg.
Print Assumptions C115_cg_strict.
Print Assumptions C115_sor.
Print Assumptions C115_example.
