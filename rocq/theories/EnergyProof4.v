(** * EnergyProof4: Jacobi on symmetric matrices A for which 2 D - A is positive definite (proof support for C116). *)
From Coq Require Import Reals Psatz.
From Verif Require Import Base Scalar Spec SumFacts SolverModel SolverSpec EigModel SolverProof SolverProof2 ConvSpec ConvProof EnergySpec EnergyProof.
Set Implicit Arguments.
Local Open Scope R_scope.
#[local] Hint Extern 0 (Scalar R) => exact Rscalar : typeclass_instances.

Section Jacobi.
Variables (n : nat) (M : nat -> nat -> R) (b : list R) (xs : nat -> R).
Hypothesis Hsym : symmetric n M.
Hypothesis Hs : solution n M b xs.
Hypothesis Hd : forall i, (i < n)%nat -> M i i <> 0.
Definition jgain (t : nat -> R) : R := 2 * Sm n (fun i => M i i * (t i * t i)) - quad n M t.
Notation E0 := (energy n M xs).
Definition jcorr (x t : list R) : Prop := forall i, (i < n)%nat -> M i i * fn t i = residual n M x b i.

Lemma jac_energy x t x' : jcorr x t -> moved n x t x' -> E0 x' = E0 x - jgain (fn t).
Proof.
  intros HC HM. unfold energy.
  assert (Q : quad n M (fun i => fn x' i - xs i) = quad n M (fun i => (fn x i - xs i) + fn t i)).
  { unfold quad. apply Sm_ext. intros i Hi. rewrite HM by auto. f_equal; [ring|]. unfold mv. apply Sm_ext. intros j Hj. cbn [fmul Rscalar]. rewrite HM by auto. ring. }
  rewrite Q, (quad_plus Hsym). unfold jgain.
  assert (S1 : Sm n (fun i => fn t i * mv n M (fun k => fn x k - xs k) i) = - Sm n (fun i => M i i * (fn t i * fn t i))).
  { replace (- Sm n (fun i => M i i * (fn t i * fn t i))) with (-1 * Sm n (fun i => M i i * (fn t i * fn t i))) by ring. rewrite <- Sm_scal.
    apply Sm_ext. intros i Hi. replace (M i i * (fn t i * fn t i)) with (fn t i * (M i i * fn t i)) by ring. rewrite HC by auto. unfold residual. rewrite <- Hs by auto.
    unfold mv. cbn [fmul fsub Rscalar].
    replace (-1 * (fn t i * (Sm n (fun j => M i j * xs j) - Sm n (fun j => M i j * fn x j)))) with (fn t i * (-1 * (Sm n (fun j => M i j * xs j) - Sm n (fun j => M i j * fn x j)))) by ring.
    f_equal. rewrite <- Sm_minus, <- Sm_scal. apply Sm_ext. intros. ring. }
  rewrite S1. ring.
Qed.

Variables (c : cfg (F:=R)) (A : matif (F:=R)) (pre : list R -> list R -> res (list R)) (d : list R) (bn : R).
Hypothesis HA : represents A n M.
Hypothesis Hm : s_method c = 0%nat.
Hypothesis Hb : length b = n.
Hypothesis Hpre : forall r z, length r = n -> length z = n -> exists z', pre r z = Ok z' /\ length z' = n.
Hypothesis Hdl : length d = n.
Hypothesis Hdi : forall i, (i < n)%nat -> fn d i = 1 / M i i.

(** one iteration *)
Lemma jac_one iter x r t s : length x = n -> length r = n -> length t = n -> length s = n ->
  exists x' r' t' s' u, length x' = n /\ length r' = n /\ length t' = n /\ length s' = n /\ length u = n /\ jcorr x u /\ moved n x u x' /\
    (forall i, (i < n)%nat -> fn r' i = residual n M x b i) /\ forall m k,
    jacobi_loop (with_maxiter c m) A pre b d bn (S k) iter x r t s =
      if fltb (norm2 n (fn r') * bn) (s_tol c) && (s_miniter c <=? iter + 1)%nat then Ok (mkOut SUCCESS x' (iter + 1) (norm2 n (fn u)))
      else jacobi_loop (with_maxiter c m) A pre b d bn k (S iter) x' u t' s'.
Proof.
  intros Hx Hr Ht Hs'. pose proof HA as (R1 & R2 & R3).
  destruct (Hpre x s Hx Hs') as (s1 & Es & Ls).
  destruct (R3 x t Hx Ht) as (t' & Et & Ht' & HT).
  destruct (@resid_axpyz R Rscalar R_exact c n M b Hm Hb x t' r Hx Ht' Hr HT) as (r' & Er & Hr' & HR).
  set (u := zipw (@fmul R Rscalar) r' d). set (x' := zipw (@fadd R Rscalar) x u).
  assert (Lu : length u = n) by (unfold u; now rewrite zipw_length).
  assert (Lx : length x' = n) by (unfold x'; now rewrite zipw_length).
  exists x', r', t', x, u. split; [auto|]. split; [auto|]. split; [auto|]. split; [auto|]. split; [auto|]. split.
  { intros i Hi. unfold u. rewrite zipw_fn by lia. rewrite HR, Hdi by auto. cbn [fmul Rscalar]. field. auto. }
  split; [intros i Hi; unfold x'; rewrite zipw_fn by lia; reflexivity|]. split; [auto|].
  intros m k. cbn [jacobi_loop]. rewrite Es. cbn [bind]. rewrite (@v_copy_ok R n) by auto. cbn [bind]. rewrite Et. cbn [bind]. rewrite Er. cbn [bind].
  rewrite (@v_nrm2_exact R Rscalar R_exact n) by auto. cbn [bind].
  rewrite (@v_mul_ok R Rscalar n) by auto. cbn [bind]. fold u.
  rewrite (@v_add_ok R Rscalar n) by auto. cbn [bind]. fold x'.
  unfold get_residual. change (s_method (with_maxiter c m)) with (s_method c). rewrite Hm, (@v_nrm2_exact R Rscalar R_exact n) by auto. cbn [bind fnan Rscalar]. reflexivity.
Qed.

Lemma jac_run_en dec m k : (forall t, 0 <= jgain t) -> psd n M -> 0 < dec ->
  forall iter x r t s, length x = n -> length r = n -> length t = n -> length s = n ->
  exists o, jacobi_loop (with_maxiter c m) A pre b d bn k iter x r t s = Ok o /\ length (o_x o) = n /\ E0 (o_x o) <= E0 x /\
   ((forall t, s_tol c <= norm2 n (fun i => M i i * t i) * bn -> dec <= jgain t) -> forall K, (iter <= K < iter + k)%nat -> E0 x < INR (K + 1 - Nat.max iter (s_miniter c - 1)) * dec -> o_code o = SUCCESS /\ (o_iter o <= K + 1)%nat).
Proof.
  intros Hg HP D0. induction k as [|k IH]; intros iter x r t s Hx Hr Ht Hs'.
  - cbn [jacobi_loop]. unfold get_residual. change (s_method (with_maxiter c m)) with (s_method c). rewrite Hm, (@v_nrm2_exact R Rscalar R_exact n) by auto. cbn [bind].
    eexists; split; [reflexivity|]. cbn [o_x]. split; auto. split; [lra|]. intros; lia.
  - destruct (@jac_one iter x r t s Hx Hr Ht Hs') as (x' & r' & t' & s' & u & Lx & Lr & Lt & Ls & Lu & HC & HM & HR & EQ). rewrite EQ.
    pose proof (jac_energy HC HM) as HE. pose proof (Hg (fn u)) as GP.
    destruct (fltb _ _ && _) eqn:E1.
    + eexists; split; [reflexivity|]. cbn [o_x o_code o_iter]. split; auto. split; [lra|]. intros _ K HK _. split; auto. lia.
    + destruct (IH (S iter) x' u t' s') as (o & -> & L1 & L3 & L5); auto.
      eexists; split; [reflexivity|]. split; auto. split; [lra|].
      intros Hdec K HK HS. apply andb_false_iff in E1.
      assert (P' : 0 <= E0 x') by apply HP.
      destruct (Nat.leb_spec (s_miniter c) (iter + 1)) as [Lm|Lm].
      * destruct E1 as [E1|E1]; [|discriminate].
        assert (DG : dec <= jgain (fn u)).
        { apply Hdec. cbn [fltb Rscalar] in E1. destruct (Rlt_dec _ _) as [|G]; [discriminate|].
          rewrite (@norm2_ext R Rscalar n (fun i => M i i * fn u i) (fn r')) by (intros i Hi; rewrite HC, HR by auto; reflexivity). cbn [fmul Rscalar] in G. lra. }
        replace (Nat.max iter (s_miniter c - 1)) with iter in HS by lia.
        destruct (Nat.eq_dec K iter) as [->|N].
        -- exfalso. replace (iter + 1 - iter)%nat with 1%nat in HS by lia. cbn [INR] in HS. lra.
        -- apply L5; auto; [lia|]. replace (Nat.max (S iter) (s_miniter c - 1)) with (S iter) by lia.
           replace (K + 1 - iter)%nat with (S (K + 1 - S iter)) in HS by lia. rewrite S_INR in HS. lra.
      * replace (Nat.max iter (s_miniter c - 1)) with (s_miniter c - 1)%nat in HS by lia.
        assert (Hc : (0 < K + 1 - (s_miniter c - 1))%nat).
        { destruct (K + 1 - (s_miniter c - 1))%nat; [|lia]. cbn [INR] in HS. pose proof (HP (fun i => fn x i - xs i)) as Q. fold (E0 x) in Q. lra. }
        apply L5; auto; [lia|]. replace (Nat.max (S iter) (s_miniter c - 1)) with (s_miniter c - 1)%nat by lia. lra.
Qed.

(** an iteration whose residual is not small gains a fixed amount *)
Lemma jgain_bound mu tol : 0 < mu -> (forall t, mu * Sm n (fun i => t i * t i) <= jgain t) -> 0 < tol -> 0 < bn ->
  exists dec, 0 < dec /\ forall t, tol <= norm2 n (fun i => M i i * t i) * bn -> dec <= jgain t.
Proof.
  intros M0 HG T0 B0.
  assert (MX : exists m, 0 < m /\ forall i, (i < n)%nat -> Rabs (M i i) <= m).
  { clear. induction n as [|k IH]; [exists 1; split; [lra|intros; lia]|].
    destruct IH as (m & m0 & H). exists (Rmax m (Rabs (M k k))). split; [eapply Rlt_le_trans; [exact m0|apply Rmax_l]|].
    intros i Hi. destruct (Nat.eq_dec i k) as [->|N]; [apply Rmax_r|]. eapply Rle_trans; [apply H; lia|apply Rmax_l]. }
  destruct MX as (m & m0 & Hmax).
  set (C := m * bn). assert (C0 : 0 < C) by (apply Rmult_lt_0_compat; auto).
  exists (mu * ((tol / C) * (tol / C))). assert (TC : 0 < tol / C) by (apply Rdiv_lt_0_compat; auto). split.
  { apply Rmult_lt_0_compat; auto. now apply Rmult_lt_0_compat. }
  intros t Ht. eapply Rle_trans; [|apply HG]. apply Rmult_le_compat_l; [lra|].
  set (S := Sm n (fun i => t i * t i)). assert (S0 : 0 <= S) by (apply Sm_pos; intros; apply Rle_0_sqr).
  assert (N1 : norm2 n (fun i => M i i * t i) <= m * sqrt S).
  { unfold norm2. cbn [fsqrt Rscalar]. rewrite <- (sqrt_square m) by lra. rewrite <- sqrt_mult_alt by (apply Rle_0_sqr).
    apply sqrt_le_1_alt. unfold S. rewrite <- Sm_scal. apply Sm_le. intros i Hi. cbn [fmul Rscalar].
    replace (M i i * t i * (M i i * t i)) with ((M i i * M i i) * (t i * t i)) by ring. apply Rmult_le_compat_r; [apply Rle_0_sqr|].
    replace (M i i * M i i) with (Rabs (M i i) * Rabs (M i i)) by (rewrite <- Rabs_mult; apply Rabs_pos_eq, Rle_0_sqr).
    pose proof (Rabs_pos (M i i)). apply Rmult_le_compat; auto. }
  assert (N2 : tol <= sqrt S * C).
  { eapply Rle_trans; [exact Ht|]. unfold C. replace (sqrt S * (m * bn)) with (m * sqrt S * bn) by ring. apply Rmult_le_compat_r; lra. }
  assert (N3 : tol / C <= sqrt S).
  { apply Rmult_le_reg_r with C; auto. unfold Rdiv. rewrite Rmult_assoc, Rinv_l by lra. lra. }
  rewrite <- (sqrt_sqrt S) by auto. apply Rmult_le_compat; lra.
Qed.
End Jacobi.

(** the gain is the quadratic form of 2 D - A *)
Lemma jgain_quad n M t : jgain n M t = quad n (fun i j => (if (i =? j)%nat then 2 * M i i else 0) - M i j) t.
Proof.
  unfold jgain, quad. rewrite <- Sm_scal, <- Sm_minus. apply Sm_ext. intros i Hi. unfold mv. cbn [fmul Rscalar].
  rewrite (@Sm_ext n (fun j => ((if (i =? j)%nat then 2 * M i i else 0) - M i j) * t j) (fun j => (if (j =? i)%nat then 2 * M i i * t i else 0) - M i j * t j)).
  - rewrite Sm_minus. rewrite (@Sm_split n i (fun j => if (j =? i)%nat then 2 * M i i * t i else 0)) by auto. rewrite Nat.eqb_refl.
    rewrite (@Sm_ext n (fun j => if (j =? i)%nat then 0 else if (j =? i)%nat then 2 * M i i * t i else 0) (fun _ => 0 * 0)) by (intros j Hj; destruct (j =? i)%nat; ring).
    rewrite (@Sm_scal n 0 (fun _ => 0)). ring.
  - intros j Hj. rewrite (Nat.eqb_sym j i). destruct (Nat.eqb_spec i j) as [->|N]; ring.
Qed.
