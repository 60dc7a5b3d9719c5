(** * PropertiesPcg: C100, preconditioned CG terminates in exact arithmetic. *)
From Coq Require Import QArith Qcanon.
From Verif Require Import Base Scalar Spec SumFacts DenseModel Observe CrsModel CrsObserve SolverModel SolverSpec
  SolverProof SolverProof2 SolverSorProof CgProof LobSpec LobProof4 LobWitness CrsSimProof PropertiesSolver PcgSpec PcgProof PcgPre.
Set Implicit Arguments.
Local Close Scope Qc_scope.
Local Close Scope Q_scope.
Local Open Scope nat_scope.

(** any symmetric definite linear preconditioner, any field *)
Theorem C100_pcg_terminates {F} {SF : Scalar F} (c : cfg (F:=F)) (A : matif (F:=F)) n M pre K (x b : list F) li lr :
  exact SF -> field_arith -> represents A n M -> symmetric n M -> definite n M -> sym_definite_map n K -> pre_is A n pre K ->
  s_lib c = 0 -> s_method c = 0 -> fltb (fsqrt f0) (s_tol c) = true ->
  1 <= s_maxiter c -> n <= s_maxiter c -> s_miniter c <= s_maxiter c ->
  length x = n -> length b = n ->
  exists o, cg_solve c A pre x b li lr = Ok o /\ o_code o = SUCCESS /\
    o_iter o <= Nat.max 1 (Nat.max n (s_miniter c)) /\
    o_resid o = norm2 n (residual n M (o_x o) b) /\
    fltb (norm2 n (residual n M (o_x o) b)) (s_tol c) = true.
Proof.
  intros Hex Hf HA Hs Hd HK (f & Ef & HP) Hl Hm Ht H1 H2 H3 Hx Hb.
  destruct (@pcg_finite F SF Hex Hf n M K Hs Hd HK c A f HA HP Hm Ht (conj H1 (conj H2 H3)) pre x b li lr Ef Hl Hx Hb) as (o & E & Hc & Hi).
  destruct (@C34_cg_exact F SF c A n M pre x b li lr) as (o' & E' & _ & Hr & Hh & _); auto.
  { exists f. split; auto. intros r z Lr Lz. destruct (HP r z Lr Lz) as (z' & G1 & G2 & _). eauto. }
  rewrite E in E'. inversion E'; subst o'. exists o. split; auto. split; auto. split; auto. split; auto.
  rewrite <- Hr. destruct Hh as [(_ & G & _)|[(G & _)|[(G & _)|(G & _)]]]; auto; rewrite Hc in G; discriminate G.
Qed.
Print Assumptions C100_pcg_terminates.

(** over an ordered field (the reals, the rationals), A symmetric positive definite: the Jacobi preconditioner, any matrix format *)
Theorem C100_jacobi {F} {SF : Scalar F} (c : cfg (F:=F)) (A : matif (F:=F)) n M (x b : list F) li lr :
  ordered_field (F:=F) -> represents A n M -> has_diag A n M -> symmetric n M -> positive_definite n M ->
  s_lib c = 0 -> s_method c = 0 -> fltb (fsqrt f0) (s_tol c) = true ->
  1 <= s_maxiter c -> n <= s_maxiter c -> s_miniter c <= s_maxiter c -> length x = n -> length b = n ->
  exists o, cg_solve c A pc_jacobi x b li lr = Ok o /\ o_code o = SUCCESS /\
    o_iter o <= Nat.max 1 (Nat.max n (s_miniter c)) /\
    o_resid o = norm2 n (residual n M (o_x o) b) /\
    fltb (norm2 n (residual n M (o_x o) b)) (s_tol c) = true.
Proof.
  intros Ho HA HD Hs HP Hl Hm Ht H1 H2 H3 Hx Hb. pose proof HA as (R1 & R2 & _).
  apply (@C100_pcg_terminates F SF c A n M pc_jacobi (Kjac M) x b li lr); auto.
  - exact (of_ring Ho).
  - exact (of_field Ho).
  - now apply (positive_is_definite Ho).
  - apply (jac_map Ho). intros i Hi. now apply (diag_positive Ho HP).
  - pose proof (@C52_preconditioners F SF n (of_ring Ho)) as (_ & J & _).
    assert (Lz : length (repeat (f0 (Scalar:=SF)) n) = n) by now rewrite repeat_length.
    destruct (J A M _ _ R1 R2 HD Lz Lz) as (f & _ & Ef & _). exists f. split; auto.
    intros r z Lr Lz'. destruct (J A M r z R1 R2 HD Lr Lz') as (f' & z' & Ef' & E & L & V). rewrite Ef in Ef'. injection Ef' as <-.
    exists z'. split; auto.
Qed.
Print Assumptions C100_jacobi.

(** the SOR preconditioner, CRS matrices, omega > 0 *)
Theorem C100_sor {F} {SF : Scalar F} (c : cfg (F:=F)) (A : crs F) n omega (x b : list F) li lr :
  ordered_field (F:=F) -> crs_ok A -> m_first A = 0 -> m_row A = n -> m_col A = n -> nodup_pos (crs_entries A) ->
  symmetric n (summed (crs_entries A)) -> positive_definite n (summed (crs_entries A)) -> fltb f0 omega = true ->
  s_lib c = 0 -> s_method c = 0 -> fltb (fsqrt f0) (s_tol c) = true ->
  1 <= s_maxiter c -> n <= s_maxiter c -> s_miniter c <= s_maxiter c -> length x = n -> length b = n ->
  exists o, cg_solve c (crs_if A) (pc_sor omega (sor_precond_crs A)) x b li lr = Ok o /\ o_code o = SUCCESS /\
    o_iter o <= Nat.max 1 (Nat.max n (s_miniter c)) /\
    o_resid o = norm2 n (residual n (summed (crs_entries A)) (o_x o) b) /\
    fltb (norm2 n (residual n (summed (crs_entries A)) (o_x o) b)) (s_tol c) = true.
Proof.
  intros Ho W Hf0 Hrw Hcl Hnd Hs HP Hw Hl Hm Ht H1 H2 H3 Hx Hb.
  assert (Lz : length (repeat (f0 (Scalar:=SF)) n) = n) by now rewrite repeat_length.
  pose proof (@C52_preconditioners F SF n (of_ring Ho)) as (_ & _ & J & _).
  destruct (J A omega _ _ W Hf0 Hrw Hcl Hnd Lz Lz) as (f & _ & _ & _ & Ef & _).
  pose (K := fun u : nat -> F => fn (match f (map u (seq 0 n)) (repeat f0 n) with Ok z => z | _ => [] end)).
  set (M := summed (crs_entries A)) in *.
  pose (d := fun i => fdiv f1 (fmul omega (M i i))). pose (e := fun i => fmul omega (M i i)).
  assert (He : forall i, i < n -> fltb f0 (e i) = true). { intros i Hi. apply (of_mul Ho); auto. now apply (diag_positive Ho HP). }
  assert (Hed : forall i, i < n -> fmul (e i) (d i) = f1).
  { intros i Hi. unfold d. rewrite (Rmul_comm (of_ring Ho)). apply (div_mul (of_field Ho)). intros E. change (e i = f0) in E. pose proof (He i Hi) as G. rewrite E, (of_irr Ho) in G. discriminate. }
  assert (Hrel : forall r z, length r = n -> length z = n -> exists z', f r z = Ok z' /\ length z' = n /\ exists y, rel n M d (fn r) y (fn z')).
  { intros r z Lr Lzz. destruct (J A omega r z W Hf0 Hrw Hcl Hnd Lr Lzz) as (f' & D & y & z' & Ef' & E & L & HD & S1 & S2).
    rewrite Ef in Ef'. injection Ef' as <-. exists z'. split; auto. split; auto. exists (fn y). intros i Hi. split.
    - rewrite (S1 i Hi). f_equal. apply HD. auto.
    - rewrite (S2 i Hi). f_equal. f_equal. apply HD. auto. }
  assert (Kfn : forall u i, i < n -> fn (map u (seq 0 n)) i = u i). { intros u i Hi. unfold fn. rewrite nth_map_seq; auto. }
  assert (HK : forall u, exists y, rel n M d u y (K u)).
  { intros u. destruct (Hrel (map u (seq 0 n)) (repeat f0 n)) as (z' & E & L & y & R); auto; [now rewrite map_length, seq_length|].
    exists y. unfold K. rewrite E. intros i Hi. destruct (R i Hi) as (Q1 & Q2). split; auto. rewrite Q1, Kfn by auto. reflexivity. }
  apply (@C100_pcg_terminates F SF c (crs_if A) n M (pc_sor omega (sor_precond_crs A)) K x b li lr); auto.
  - exact (of_ring Ho).
  - exact (of_field Ho).
  - apply (C34_formats n (of_ring Ho)); auto. now apply crs_ok_readable.
  - now apply (positive_is_definite Ho).
  - apply (@sor_map F SF Ho n M e d Hed K); auto.
  - exists f. split; auto. intros r z Lr Lzz. destruct (Hrel r z Lr Lzz) as (z' & E & L & y & R). exists z'. split; auto. split; auto.
    destruct (HK (fn r)) as (y' & R'). apply (rel_unique (r := fn r) (r' := fn r) (fun _ _ => eq_refl) R R').
Qed.
Print Assumptions C100_sor.

(** a concrete case: the CRS matrix [[2,1],[1,2]] over the rationals, b = (3,6), both preconditioners *)
#[local] Hint Extern 0 (Scalar Qc) => exact Qcs : typeclass_instances.
Definition pA : crs Qc := mkCrs 2 2 [0; 2; 4] [0; 1; 0; 1] [LobWitness.q 2 1; LobWitness.q 1 1; LobWitness.q 1 1; LobWitness.q 2 1] 0 4 4 true 0%N.
Definition pC : cfg (F:=Qc) := mkCfg 0 (LobWitness.q 1 1000) 0 5 0 (LobWitness.q 1 1).
Lemma pA_fn v : dotp 2 v (mv 2 (summed (crs_entries pA)) v) = (v 0%nat * v 0%nat + v 1%nat * v 1%nat + (v 0%nat + v 1%nat) * (v 0%nat + v 1%nat))%Qc.
Proof.
  unfold dotp, mv. cbn [sum_n f0 f1 fadd fmul Qcs].
  assert (E : forall i j, i < 2 -> j < 2 -> summed (crs_entries pA) i j = if i =? j then (1 + 1)%Qc else 1%Qc).
  { intros i j Hi Hj. destruct i as [|[|i]], j as [|[|j]]; try lia; apply Qc_is_canon; vm_compute; reflexivity. }
  rewrite !E by lia. cbn [Nat.eqb]. ring.
Qed.
Theorem C100_example : crs_ok pA /\ nodup_pos (crs_entries pA) /\ symmetric 2 (summed (crs_entries pA)) /\ positive_definite 2 (summed (crs_entries pA)) /\
  (exists o, cg_solve pC (crs_if pA) pc_jacobi [LobWitness.q 0 1; LobWitness.q 0 1] [LobWitness.q 3 1; LobWitness.q 6 1] 0 (LobWitness.q 0 1) = Ok o /\ o_code o = SUCCESS /\ o_iter o <= 2 /\ map this (o_x o) = [0 # 1; 3 # 1]%Q) /\
  (exists o, cg_solve pC (crs_if pA) (pc_sor (LobWitness.q 1 1) (sor_precond_crs pA)) [LobWitness.q 0 1; LobWitness.q 0 1] [LobWitness.q 3 1; LobWitness.q 6 1] 0 (LobWitness.q 0 1) = Ok o /\ o_code o = SUCCESS /\ o_iter o <= 2 /\ map this (o_x o) = [0 # 1; 3 # 1]%Q).
Proof.
  assert (W : crs_ok pA). { unfold crs_ok, rpn, cin; cbn. repeat split; try lia; intros i Hi; repeat (destruct i as [|i]; cbn; try lia). }
  split; [exact W|]. split. { vm_compute. repeat constructor; cbn; intuition congruence. }
  split. { intros i j Hi Hj. destruct i as [|[|i]], j as [|[|j]]; try lia; reflexivity. }
  split.
  { intros v (i & Hi & Hv). rewrite pA_fn. cbn [f0 Qcs].
    pose proof (sq_nonneg Qcs_ordered (v 0%nat)) as N0. pose proof (sq_nonneg Qcs_ordered (v 1%nat)) as N1. pose proof (sq_nonneg Qcs_ordered (v 0%nat + v 1%nat)%Qc) as N2.
    pose proof (sq_pos Qcs_ordered Hv) as P. cbn [fmul f0 Qcs] in *.
    eapply (@lt_le_trans' Qc Qcs Qcs_ordered); [exact P|]. apply (proj2 (@le_sub Qc Qcs Qcs_ordered _ _)). cbn [fsub f0 Qcs].
    destruct i as [|[|i]]; [| |lia].
    - replace (v 0%nat * v 0%nat + v 1%nat * v 1%nat + (v 0%nat + v 1%nat) * (v 0%nat + v 1%nat) - v 0%nat * v 0%nat)%Qc with (v 1%nat * v 1%nat + (v 0%nat + v 1%nat) * (v 0%nat + v 1%nat))%Qc by ring.
      replace 0%Qc with (0 + 0)%Qc by ring. apply (le_add Qcs_ordered N1 N2).
    - replace (v 0%nat * v 0%nat + v 1%nat * v 1%nat + (v 0%nat + v 1%nat) * (v 0%nat + v 1%nat) - v 1%nat * v 1%nat)%Qc with (v 0%nat * v 0%nat + (v 0%nat + v 1%nat) * (v 0%nat + v 1%nat))%Qc by ring.
      replace 0%Qc with (0 + 0)%Qc by ring. apply (le_add Qcs_ordered N0 N2). }
  split; eexists; (split; [vm_compute; reflexivity|]); (split; [vm_compute; reflexivity|]); (split; [vm_compute; lia|]); vm_compute; reflexivity.
Qed.
Print Assumptions C100_example.
