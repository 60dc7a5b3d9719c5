(** * PropertiesEnergy: C114, SOR on symmetric positive semidefinite systems (real arithmetic): Ostrowski-Reich. *)
From Coq Require Import Reals Psatz Lra.
From Verif Require Import Base Scalar Spec SumFacts DenseModel CooModel Observe CrsModel CrsObserve SolverModel SolverSpec EigModel
  SolverProof SolverProof2 SolverSorProof PropertiesSolver ConvSpec ConvProof CrsSimProof EnergySpec EnergyProof.
Set Implicit Arguments.
Local Open Scope R_scope.
#[local] Hint Extern 0 (Scalar R) => exact Rscalar : typeclass_instances.

Section SOR.
Variables (A : matif (F:=R)) (n : nat) (M : nat -> nat -> R) (lower : list R -> list R -> list R -> res (list R)) (x b : list R) (li : nat) (lr : R).
Hypothesis HA : represents A n M.
Hypothesis HD : has_diag A n M.
Hypothesis Hlow : forall d t r, length d = n -> length t = n -> length r = n ->
  exists t', lower d t r = Ok t' /\ length t' = n /\ solves_lower n M d r t'.
Hypothesis Hsym : symmetric n M.
Hypothesis Hd : forall i, (i < n)%nat -> 0 < M i i.
Hypothesis Hx : length x = n.
Hypothesis Hb : length b = n.
Hypothesis Hb0 : exists i, (i < n)%nat /\ fn b i <> 0.
Variable xs : nat -> R.
Hypothesis Hs : solution n M b xs.

Lemma sor_solve_en c dec : s_lib c = 0%nat -> s_method c = 0%nat -> 0 < s_omega c ->
  (forall t, s_tol c <= norm2 n (Pu n (elo M) (ep M (s_omega c)) t) * (1 / norm2 n (fn b)) -> dec <= gain n M (s_omega c) t) ->
  exists o, sor_solve c A lower pc_none x b li lr = Ok o /\ run_en n M (s_omega c) xs c dec 0 (s_maxiter c) x o.
Proof.
  intros Hl Hm W1 Hdec. unfold sor_solve. rewrite Hl. unfold monolish_sor.
  pose proof HA as (R1 & R2 & R3). rewrite R1, R2, Nat.eqb_refl. cbn [require_ bind].
  assert (Hz : length (repeat (@f0 R Rscalar) n) = n) by now rewrite repeat_length.
  destruct (HD _ Hz) as (d & -> & Hdl & Hdi). cbn [bind].
  rewrite (@v_recip_ok R Rscalar n) by (unfold v_scal; rewrite ?map_length; auto). cbn [bind].
  rewrite (@v_nrm2_exact R Rscalar R_exact n) by auto. cbn [bind].
  unfold pc_none. cbn [bind]. set (d' := map (fun v => fdiv f1 v) _).
  assert (Hd' : length d' = n) by (unfold d', v_scal; now rewrite !map_length).
  apply (@sor_run_en n M (s_omega c) Hsym W1 b xs Hs c A HA Hm Hb Hd lower d'); auto.
  intros i Hi. unfold fn, d', v_scal. rewrite map_map.
  rewrite nth_indep with (d' := 1 / (1 / s_omega c * 0)) by (rewrite map_length; lia).
  cbn [fdiv fmul f1 Rscalar]. rewrite (map_nth (fun v => 1 / (1 / s_omega c * v))). unfold ep. f_equal. f_equal. apply Hdi. auto.
Qed.

(** SUCCESS for every relaxation factor between 0 and 2 *)
Theorem C114_sor_converges c : s_lib c = 0%nat -> s_method c = 0%nat -> 0 < s_tol c -> 0 < s_omega c < 2 -> psd n M ->
  converges (fun c => sor_solve c A lower pc_none x b li lr) c.
Proof.
  intros Hl Hm Ht (W1 & W2) HP.
  assert (B0 : 0 < 1 / norm2 n (fn b)) by (apply Rdiv_lt_0_compat; [lra|now apply norm_b_pos]).
  destruct (@gain_bound n M (s_omega c) W1 Hd (s_tol c) (1 / norm2 n (fn b)) W2 Ht B0) as (dec & D0 & Hdec).
  destruct (archimed (energy n M xs x / dec)) as (Ar & _).
  assert (En : 0 <= energy n M xs x) by apply HP.
  set (N := Z.to_nat (up (energy n M xs x / dec))).
  assert (EN : energy n M xs x < INR N * dec).
  { assert (Q : 0 <= energy n M xs x / dec) by (unfold Rdiv; apply Rmult_le_pos; auto; apply Rlt_le, Rinv_0_lt_compat; auto).
    assert (U : (0 <= up (energy n M xs x / dec))%Z) by (apply le_IZR; lra).
    unfold N. rewrite INR_IZR_INZ, Z2Nat.id by auto. apply Rmult_lt_compat_r with (r := dec) in Ar; auto.
    replace (energy n M xs x / dec * dec) with (energy n M xs x) in Ar by (field; lra). lra. }
  assert (N0 : (0 < N)%nat) by (destruct N; [cbn [INR] in EN; lra|lia]).
  set (K := (N - 1 + (s_miniter c - 1))%nat).
  destruct (@sor_solve_en (with_maxiter c (K + 1)) dec) as (o & E & _ & _ & _ & _ & HS); auto.
  destruct (HS K) as (Hc & Hi); auto.
  - cbn [s_maxiter with_maxiter]. lia.
  - cbn [s_miniter with_maxiter]. replace (K + 1 - Nat.max 0 (s_miniter c - 1))%nat with N by (unfold K; lia). auto.
  - exists o, (K + 1)%nat. split; auto. split; auto. intros m Hmm.
    destruct (@sor_limit R Rscalar A lower pc_none x b li lr c Hl Hm (K + 1)%nat o E) as (_ & H); [rewrite Hc; discriminate|].
    apply (H m). lia.
Qed.

(** the error in the energy norm never grows for 0 < w <= 2, whatever the outcome of the run ... *)
Theorem C114_energy c : s_lib c = 0%nat -> s_method c = 0%nat -> 0 < s_omega c <= 2 ->
  exists o, sor_solve c A lower pc_none x b li lr = Ok o /\ length (o_x o) = n /\ energy n M xs (o_x o) <= energy n M xs x.
Proof.
  intros Hl Hm (W1 & W2). destruct (@sor_solve_en c 0) as (o & E & L & _ & H & _); auto.
  - intros t _. now apply gain_pos.
  - exists o. auto.
Qed.
(** ... and the bound 2 is sharp: with w = 2 it does not shrink at all *)
Theorem C114_two c : s_lib c = 0%nat -> s_method c = 0%nat -> s_omega c = 2 ->
  exists o, sor_solve c A lower pc_none x b li lr = Ok o /\ energy n M xs (o_x o) = energy n M xs x.
Proof.
  intros Hl Hm W. destruct (@sor_solve_en c 0) as (o & E & L & _ & _ & H & _); auto; [lra| |].
  - intros t _. apply gain_pos; auto; lra.
  - exists o. auto.
Qed.
End SOR.

(** the same for Dense and CRS objects *)
Section Objects.
Variables (n : nat) (x b : list R) (li : nat) (lr : R) (xs : nat -> R) (c : cfg (F:=R)).
Hypothesis Hx : length x = n.
Hypothesis Hb : length b = n.
Hypothesis Hb0 : exists i, (i < n)%nat /\ fn b i <> 0.
Hypothesis Hl : s_lib c = 0%nat.
Hypothesis Hm : s_method c = 0%nat.
Hypothesis Ht : 0 < s_tol c.
Hypothesis Hw : 0 < s_omega c < 2.
Definition good (M : nat -> nat -> R) : Prop :=
  symmetric n M /\ psd n M /\ (forall i, (i < n)%nat -> 0 < M i i) /\ solution n M b xs.

Theorem C114_sor_dense (A : dense R) : dense_ok A -> d_first A = 0%nat -> d_row A = n -> d_col A = n -> good (dense_fn A) ->
  converges (fun c => sor_solve c (dense_if A) (sor_lower_dense A) pc_none x b li lr) c.
Proof.
  intros W F0 R0 C0 (G1 & G2 & G3 & G4).
  destruct (@C34_formats R Rscalar n R_exact) as (_ & H1 & _). destruct (@C35_formats R Rscalar n R_exact) as (H2 & _).
  destruct (H2 A W F0 R0 C0) as (H3 & H4). apply (@C114_sor_converges (dense_if A) n (dense_fn A)) with (xs := xs); auto.
Qed.
Theorem C114_sor_crs (A : crs R) : crs_ok A -> m_first A = 0%nat -> m_row A = n -> m_col A = n -> nodup_pos (crs_entries A) ->
  (forall i, (i < n)%nat -> increasing (crs_row A i)) -> good (summed (crs_entries A)) ->
  converges (fun c => sor_solve c (crs_if A) (sor_lower_crs A) pc_none x b li lr) c.
Proof.
  intros W F0 R0 C0 N0 I0 (G1 & G2 & G3 & G4).
  destruct (@C34_formats R Rscalar n R_exact) as (H1 & _). destruct (@C35_formats R Rscalar n R_exact) as (_ & H2).
  destruct (H2 A W F0 R0 C0 N0 I0) as (H3 & H4). apply (@C114_sor_converges (crs_if A) n (summed (crs_entries A))) with (xs := xs); auto.
  apply H1; auto. now apply crs_ok_readable.
Qed.
End Objects.

(** ** a concrete case that is not diagonally dominant: [[1,2],[2,5]], b = (1,2), x0 = (0,0), w = 3/2 *)
Definition enA : dense R := mkDense 2 2 [1; 2; 2; 5] 0 4 4 true.
Definition enC : cfg (F:=R) := mkCfg 0 (1 / 1000) 0 5 0 (3 / 2).
Lemma en_good : good 2 [1; 2] (fun i => if (i =? 0)%nat then 1 else 0) (dense_fn enA) /\ ~ exists q, dominant 2 (dense_fn enA) q.
Proof.
  split.
  - split; [|split; [|split]].
    + intros i j Hi Hj. destruct i as [|[|i]], j as [|[|j]]; try lia; reflexivity.
    + intros u. unfold quad, mv, sum_n, dense_fn. cbn -[Rplus Rmult Rle].
      replace (_ + _) with ((u 0%nat + 2 * u 1%nat) * (u 0%nat + 2 * u 1%nat) + u 1%nat * u 1%nat) by ring.
      pose proof (Rle_0_sqr (u 0%nat + 2 * u 1%nat)). pose proof (Rle_0_sqr (u 1%nat)). unfold Rsqr in *. lra.
    + intros i Hi. destruct i as [|[|i]]; [| |lia]; unfold dense_fn; cbn; lra.
    + intros i Hi. destruct i as [|[|i]]; [| |lia]; unfold mv, sum_n, dense_fn; cbn; lra.
  - intros (q & (Q & H)). destruct (H 0%nat ltac:(lia)) as (_ & D). unfold offdiag, sum_n, dense_fn in D. cbn -[Rabs Rplus Rmult Rle] in D.
    rewrite !Rabs_pos_eq in D by lra. lra.
Qed.
Theorem C114_example : converges (fun c => sor_solve c (dense_if enA) (sor_lower_dense enA) pc_none [0; 0] [1; 2] 0 0) enC.
Proof.
  destruct en_good as (G & _).
  apply (@C114_sor_dense 2 [0; 0] [1; 2] 0 0 (fun i => if (i =? 0)%nat then 1 else 0) enC); auto; try (cbn; lra).
  - exists 0%nat. split; [lia|]. cbn. lra.
  - repeat split; cbn; auto; lia.
Qed.

Print Assumptions C114_sor_converges.
Print Assumptions C114_energy.
Print Assumptions C114_two.
Print Assumptions C114_sor_dense.
Print Assumptions C114_sor_crs.
Print Assumptions C114_example.
