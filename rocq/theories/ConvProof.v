(** * ConvProof: stationary iterations x := x + P^-1 (b - A x) for diagonally dominant A (proof support for C98, C99). *)
From Coq Require Import Reals Psatz Wf_nat.
From Verif Require Import Base Scalar Spec SumFacts SolverModel SolverSpec EigModel SolverProof SolverProof2 ConvSpec.
Set Implicit Arguments.
Local Open Scope R_scope.
#[local] Hint Extern 0 (Scalar R) => exact Rscalar : typeclass_instances.
Notation Sm := (@sum_n R Rscalar).

Lemma Sm_S n f : Sm (S n) f = Sm n f + f n.
Proof. reflexivity. Qed.
Lemma Sm_abs n f : Rabs (Sm n f) <= Sm n (fun i => Rabs (f i)).
Proof. induction n as [|n IH]; [cbn; rewrite Rabs_R0; lra|]. rewrite !Sm_S. eapply Rle_trans; [apply Rabs_triang|]. lra. Qed.
Lemma Sm_le n f g : (forall i, (i < n)%nat -> f i <= g i) -> Sm n f <= Sm n g.
Proof. induction n as [|n IH]; intros H; [cbn; lra|]. rewrite !Sm_S. apply Rplus_le_compat; [apply IH; intros; apply H; lia|apply H; lia]. Qed.
Lemma Sm_pos n f : (forall i, (i < n)%nat -> 0 <= f i) -> 0 <= Sm n f.
Proof. intros H. apply Rle_trans with (Sm n (fun _ => 0)); [|now apply Sm_le]. induction n; [cbn; lra|]. rewrite Sm_S. assert (0 <= Sm n (fun _ => 0)) by (apply IHn; intros; apply H; lia). lra. Qed.
Lemma Sm_ext n f g : (forall i, (i < n)%nat -> f i = g i) -> Sm n f = Sm n g.
Proof. apply sum_ext. Qed.
Lemma Sm_plus n f g : Sm n (fun i => f i + g i) = Sm n f + Sm n g.
Proof. apply (sum_add R_exact). Qed.
Lemma Sm_minus n f g : Sm n (fun i => f i - g i) = Sm n f - Sm n g.
Proof. apply (sum_sub R_exact). Qed.
Lemma Sm_scal n a f : Sm n (fun i => a * f i) = a * Sm n f.
Proof. apply (sum_scal R_exact). Qed.
Lemma Sm_split n i f : (i < n)%nat -> Sm n f = f i + Sm n (fun j => if (j =? i)%nat then 0 else f j).
Proof.
  induction n as [|n IH]; [lia|]. intros H. rewrite !Sm_S. destruct (Nat.eq_dec i n) as [->|N].
  - rewrite Nat.eqb_refl. rewrite (@Sm_ext n (fun j => if (j =? n)%nat then 0 else f j) f); [lra|].
    intros j Hj. destruct (Nat.eqb_spec j n); [lia|reflexivity].
  - rewrite IH by lia. destruct (Nat.eqb_spec n i); [lia|]. lra.
Qed.
Lemma Sm_one n f i : (forall j, (j < n)%nat -> 0 <= f j) -> (i < n)%nat -> f i <= Sm n f.
Proof. intros P H. rewrite (@Sm_split n i f H). assert (0 <= Sm n (fun j => if (j =? i)%nat then 0 else f j)); [|lra]. apply Sm_pos. intros j Hj. destruct (j =? i)%nat; [lra|auto]. Qed.
Lemma Sm_prefix n i f : (i <= n)%nat -> Sm n (fun j => if (j <? i)%nat then f j else 0) = Sm i f.
Proof.
  induction n as [|n IH]; intros H; [now replace i with 0%nat by lia|]. rewrite Sm_S. destruct (Nat.eq_dec i (S n)) as [ -> |N].
  - rewrite (proj2 (Nat.ltb_lt n (S n))) by lia. rewrite Sm_S. f_equal. apply Sm_ext. intros j Hj. now rewrite (proj2 (Nat.ltb_lt _ _)) by lia.
  - rewrite IH by lia. destruct (Nat.ltb_spec n i); [lia|]. lra.
Qed.

Section Iter.
Variables (n : nat) (M lo : nat -> nat -> R) (p : nat -> R) (rho : R).
Hypothesis Hrho : 0 <= rho < 1.
Hypothesis Hlo : forall i j, (i < n)%nat -> (i <= j)%nat -> lo i j = 0.
Hypothesis Hp : forall i, (i < n)%nat -> p i <> 0 /\
  Rabs (p i - M i i) + Sm n (fun j => if (j =? i)%nat then 0 else Rabs (lo i j - M i j) + Rabs (lo i j)) <= rho * Rabs (p i).
(** P u, with P = diag(p) + lo *)
Definition Pu (u : nat -> R) (i : nat) : R := Sm n (fun j => lo i j * u j) + p i * u i.

Lemma contract u u' U : (forall i, (i < n)%nat -> Pu u' i = Pu u i - mv n M u i) -> within n U u -> within n (rho * U) u'.
Proof.
  intros HE HU i. induction i as [i IH] using lt_wf_ind. intros Hi.
  assert (U0 : 0 <= U) by (eapply Rle_trans; [apply Rabs_pos|apply (HU i Hi)]).
  pose (g := fun j => (lo i j - M i j) * u j - lo i j * u' j).
  assert (E : p i * u' i = (p i - M i i) * u i + Sm n (fun j => if (j =? i)%nat then 0 else g j)).
  { assert (E1 : Sm n g = Sm n (fun j => lo i j * u j) - Sm n (fun j => M i j * u j) - Sm n (fun j => lo i j * u' j)).
    { unfold g. rewrite Sm_minus. f_equal. rewrite <- Sm_minus. apply Sm_ext. intros. ring. }
    rewrite (@Sm_split n i g Hi) in E1. specialize (HE i Hi). unfold Pu, mv in HE. cbn [fmul Rscalar] in HE.
    unfold g at 1 in E1. rewrite (Hlo Hi (le_n i)) in E1. lra. }
  destruct (Hp Hi) as (P0 & P1). apply Rmult_le_reg_l with (Rabs (p i)); [now apply Rabs_pos_lt|].
  rewrite <- Rabs_mult, E. eapply Rle_trans; [apply Rabs_triang|]. rewrite Rabs_mult.
  assert (B : Rabs (Sm n (fun j => if (j =? i)%nat then 0 else g j)) <=
              Sm n (fun j => if (j =? i)%nat then 0 else Rabs (lo i j - M i j) + Rabs (lo i j)) * U).
  { eapply Rle_trans; [apply Sm_abs|]. rewrite Rmult_comm, <- Sm_scal. apply Sm_le. intros j Hj.
    destruct (Nat.eqb_spec j i); [rewrite Rabs_R0; lra|]. unfold g. unfold Rminus at 1. eapply Rle_trans; [apply Rabs_triang|].
    rewrite Rabs_Ropp, !Rabs_mult. pose proof (HU j Hj). pose proof (Rabs_pos (lo i j)). pose proof (Rabs_pos (lo i j - M i j)).
    assert (Rabs (lo i j) * Rabs (u' j) <= Rabs (lo i j) * U).
    { destruct (Nat.lt_ge_cases j i) as [L|L].
      - apply Rmult_le_compat_l; auto. specialize (IH j L Hj). nra.
      - rewrite (Hlo Hi L), Rabs_R0. lra. }
    nra. }
  pose proof (HU i Hi). pose proof (Rabs_pos (p i - M i i)). pose proof (Rabs_pos (p i)).
  assert (Rabs (p i - M i i) * Rabs (u i) <= Rabs (p i - M i i) * U) by (apply Rmult_le_compat_l; auto).
  set (s := Sm n (fun j => if (j =? i)%nat then 0 else Rabs (lo i j - M i j) + Rabs (lo i j))) in *. assert ((Rabs (p i - M i i) + s) * U <= rho * Rabs (p i) * U) by (apply Rmult_le_compat_r; auto). nra.
Qed.

(** the size of P u *)
Definition Pn : R := Sm n (fun i => Sm n (fun j => Rabs (lo i j)) + Rabs (p i)).
Lemma Pn_pos : 0 <= Pn.
Proof. apply Sm_pos. intros i Hi. pose proof (Rabs_pos (p i)). assert (0 <= Sm n (fun j => Rabs (lo i j))) by (apply Sm_pos; intros; apply Rabs_pos). lra. Qed.
Lemma Pu_within u U : within n U u -> forall i, (i < n)%nat -> Rabs (Pu u i) <= Pn * U.
Proof.
  intros H i Hi. assert (U0 : 0 <= U) by (eapply Rle_trans; [apply Rabs_pos|apply (H i Hi)]).
  unfold Pu. eapply Rle_trans; [apply Rabs_triang|].
  assert (A1 : Rabs (Sm n (fun j => lo i j * u j)) <= Sm n (fun j => Rabs (lo i j)) * U).
  { eapply Rle_trans; [apply Sm_abs|]. rewrite Rmult_comm, <- Sm_scal. apply Sm_le. intros j Hj. rewrite Rabs_mult, Rmult_comm.
    apply Rmult_le_compat_r; [apply Rabs_pos|auto]. }
  assert (A2 : Rabs (p i * u i) <= Rabs (p i) * U) by (rewrite Rabs_mult; apply Rmult_le_compat_l; [apply Rabs_pos|auto]).
  assert (A3 : Sm n (fun j => Rabs (lo i j)) + Rabs (p i) <= Pn).
  { unfold Pn. apply (@Sm_one n (fun i => Sm n (fun j => Rabs (lo i j)) + Rabs (p i))); auto. intros j Hj.
    pose proof (Rabs_pos (p j)). assert (0 <= Sm n (fun k => Rabs (lo j k))) by (apply Sm_pos; intros; apply Rabs_pos). lra. }
  nra.
Qed.
Lemma norm_within u U : 0 <= U -> within n U u -> norm2 n u <= INR n * U.
Proof.
  intros U0 H. unfold norm2. cbn [fsqrt Rscalar]. rewrite <- (sqrt_Rsqr (INR n * U)) by (apply Rmult_le_pos; [apply pos_INR|auto]).
  assert (K : forall k, (k <= n)%nat -> Sm k (fun i => u i * u i) <= (INR k * U) * (INR k * U)).
  { induction k as [|k IH]; intros Hk; [cbn; lra|]. rewrite Sm_S, S_INR. specialize (IH ltac:(lia)). pose proof (H k ltac:(lia)) as Hu.
    assert (u k * u k <= U * U). { rewrite <- (Rabs_pos_eq (u k * u k)) by (apply Rle_0_sqr). rewrite Rabs_mult. apply Rmult_le_compat; auto using Rabs_pos. }
    pose proof (pos_INR k). assert (0 <= INR k * U * U) by (apply Rmult_le_pos; auto; apply Rmult_le_pos; auto). nra. }
  apply sqrt_le_1; [|apply Rle_0_sqr|apply K; lia]. apply Sm_pos. intros. apply Rle_0_sqr.
Qed.
Lemma within_norm u i : (i < n)%nat -> Rabs (u i) <= norm2 n u.
Proof.
  intros Hi. unfold norm2. cbn [fsqrt Rscalar]. rewrite <- sqrt_Rsqr_abs. apply sqrt_le_1; [apply Rle_0_sqr| |].
  - apply Sm_pos. intros. apply Rle_0_sqr.
  - unfold Rsqr. apply (@Sm_one n (fun i => u i * u i)); auto. intros. apply Rle_0_sqr.
Qed.

(** one update: x' = x + t with P t = b - A x *)
Variable b : list R.
Definition corr (x t : list R) : Prop := forall i, (i < n)%nat -> Pu (fn t) i = residual n M x b i.
Definition moved (x t x' : list R) : Prop := forall i, (i < n)%nat -> fn x' i = fn x i + fn t i.

Lemma corr_next x t x' t' : corr x t -> moved x t x' -> corr x' t' -> forall U, within n U (fn t) -> within n (rho * U) (fn t').
Proof.
  intros H1 H2 H3 U HU. apply contract with (fn t); auto. intros i Hi. rewrite H3, H1 by auto. unfold residual.
  rewrite (@mv_axpy R Rscalar R_exact n M 1 (fn x) (fn t) (fn x') i) by (intros j Hj; rewrite H2 by auto; cbn [fadd fmul Rscalar]; ring).
  cbn [fadd fmul fsub Rscalar]. ring.
Qed.
Lemma corr_error x t x' xs : corr x t -> moved x t x' -> solution n M b xs -> forall E,
  within n E (fun i => fn x i - xs i) -> within n (rho * E) (fun i => fn x' i - xs i).
Proof.
  intros H1 H2 Hs E HE. apply contract with (fun i => fn x i - xs i); auto. intros i Hi.
  assert (E1 : Pu (fun k => fn x' k - xs k) i = Pu (fun k => fn x k - xs k) i + Pu (fn t) i).
  { unfold Pu. assert (S1 : Sm n (fun j => lo i j * (fn x' j - xs j)) = Sm n (fun j => lo i j * (fn x j - xs j)) + Sm n (fun j => lo i j * fn t j)).
    { rewrite <- Sm_plus. apply Sm_ext. intros j Hj. rewrite H2 by auto. ring. }
    rewrite S1, H2 by auto. ring. }
  rewrite E1, H1 by auto. unfold residual. rewrite <- Hs by auto.
  assert (E2 : mv n M (fun k => fn x k - xs k) i = mv n M (fn x) i - mv n M xs i).
  { unfold mv. cbn [fmul Rscalar]. rewrite <- Sm_minus. apply Sm_ext. intros. ring. }
  rewrite E2. cbn [fsub Rscalar]. ring.
Qed.
(** the correction bounds the error *)
Lemma corr_post x t x' xs : corr x t -> moved x t x' -> solution n M b xs -> forall T,
  within n T (fn t) -> within n (rho / (1 - rho) * T) (fun i => fn x' i - xs i).
Proof.
  intros H1 H2 Hs T HT i0 Hi0.
  (* the largest error *)
  assert (ME : exists E, within n E (fun i => fn x i - xs i) /\ forall E', within n E' (fun i => fn x i - xs i) -> E <= E').
  { destruct n as [|n']; [lia|]. clear - n'. induction n' as [|k IH].
    - exists (Rabs (fn x 0 - xs 0%nat)). split; [intros i Hi; replace i with 0%nat by lia; lra|]. intros E' H. apply (H 0%nat). lia.
    - destruct IH as (E & A1 & A2). exists (Rmax E (Rabs (fn x (S k) - xs (S k)))). split.
      + intros i Hi. destruct (Nat.eq_dec i (S k)) as [->|N]; [apply Rmax_r|]. eapply Rle_trans; [apply A1; lia|apply Rmax_l].
      + intros E' H. apply Rmax_lub; [apply A2; intros i Hi; apply H; lia|apply H; lia]. }
  destruct ME as (E & A1 & A2).
  pose proof (corr_error H1 H2 Hs A1) as B.
  assert (E0 : 0 <= E) by (eapply Rle_trans; [apply Rabs_pos|apply (A1 i0 Hi0)]).
  assert (L : E <= rho * E + T).
  { apply A2. intros i Hi. replace (fn x i - xs i) with ((fn x' i - xs i) - fn t i) by (rewrite H2 by auto; ring).
    unfold Rminus at 1. eapply Rle_trans; [apply Rabs_triang|]. rewrite Rabs_Ropp. pose proof (B i Hi). pose proof (HT i Hi). cbn beta in *. lra. }
  eapply Rle_trans; [apply (B i0 Hi0)|]. unfold Rdiv. rewrite Rmult_assoc. apply Rmult_le_compat_l; [lra|].
  apply Rmult_le_reg_l with (1 - rho); [lra|]. rewrite <- Rmult_assoc, Rinv_r by lra. lra.
Qed.
End Iter.

(** powers of a number below 1 *)
Lemma pow_small rho T e : 0 <= rho < 1 -> 0 < e -> exists K, forall k, (K <= k)%nat -> rho ^ k * T < e.
Proof.
  intros Hr He. destruct (pow_lt_1_zero rho) with (y := e / (Rabs T + 1)) as (K & HK).
  - rewrite Rabs_pos_eq; lra.
  - pose proof (Rabs_pos T). apply Rdiv_lt_0_compat; lra.
  - exists K. intros k Hk. specialize (HK k Hk). pose proof (Rabs_pos T). pose proof (pow_le rho k (proj1 Hr)) as P. rewrite Rabs_pos_eq in HK by auto.
    apply Rle_lt_trans with (rho ^ k * (Rabs T + 1)); [apply Rmult_le_compat_l; auto; pose proof (Rle_abs T); lra|].
    apply Rmult_lt_reg_r with (/ (Rabs T + 1)); [apply Rinv_0_lt_compat; lra|]. rewrite Rmult_assoc, Rinv_r by lra. unfold Rdiv in HK. lra.
Qed.

Lemma corr_unique n M lo p b : (forall i j, (i < n)%nat -> (i <= j)%nat -> lo i j = 0) -> (forall i, (i < n)%nat -> p i <> 0) ->
  forall x t t', corr n M lo p b x t -> corr n M lo p b x t' -> forall i, (i < n)%nat -> fn t i = fn t' i.
Proof.
  intros Hlo Hp x t t' H1 H2 i. induction i as [i IH] using lt_wf_ind. intros Hi.
  pose proof (H1 i Hi) as E1. pose proof (H2 i Hi) as E2. unfold Pu in *.
  assert (E3 : Sm n (fun j => lo i j * fn t j) = Sm n (fun j => lo i j * fn t' j)).
  { apply Sm_ext. intros j Hj. destruct (Nat.lt_ge_cases j i) as [L|L]; [now rewrite IH|rewrite (Hlo i j Hi L); ring]. }
  apply Rmult_eq_reg_l with (p i); auto. lra.
Qed.

Section Loops.
Variables (c : cfg (F:=R)) (A : matif (F:=R)) (n : nat) (M lo : nat -> nat -> R) (p : nat -> R) (rho : R) (b : list R).
Hypothesis HA : represents A n M.
Hypothesis Hm : s_method c = 0%nat.
Hypothesis Hb : length b = n.
Hypothesis Hrho : 0 <= rho < 1.
Hypothesis Hlo : forall i j, (i < n)%nat -> (i <= j)%nat -> lo i j = 0.
Hypothesis Hp : forall i, (i < n)%nat -> p i <> 0 /\
  Rabs (p i - M i i) + Sm n (fun j => if (j =? i)%nat then 0 else Rabs (lo i j - M i j) + Rabs (lo i j)) <= rho * Rabs (p i).
Notation Corr := (corr n M lo p b).
Notation Pn := (Pn n lo p).

(** what a run from x with iterations numbered from [iter] does *)
Definition run_ok (iter k : nat) (x : list R) (bn : R) (o : outcome (F:=R)) : Prop :=
  length (o_x o) = n /\ (iter <= o_iter o)%nat /\
  (forall xs E, solution n M b xs -> within n E (fun i => fn x i - xs i) -> within n (rho ^ (o_iter o - iter) * E) (fun i => fn (o_x o) i - xs i)) /\
  (forall T K, 0 <= T -> (forall t, Corr x t -> within n T (fn t)) -> (iter <= K < iter + k)%nat -> (s_miniter c <= K + 1)%nat ->
     rho ^ (K - iter) * (INR n * (Pn * T) * bn) < s_tol c -> o_code o = SUCCESS /\ (o_iter o <= K + 1)%nat).

Lemma run_stop iter k x x' t bn fr : length x' = n -> Corr x t -> moved n x t x' -> run_ok iter k x bn (mkOut SUCCESS x' (iter + 1) fr).
Proof.
  intros HL HC HM. split; auto. cbn [o_iter o_x o_code]. split; [lia|]. split.
  - intros xs E Hs HE. replace (iter + 1 - iter)%nat with 1%nat by lia. rewrite pow_1. exact (corr_error Hrho Hlo Hp HC HM Hs HE).
  - intros T K _ _ HK _ _. split; auto. lia.
Qed.
Lemma run_limit iter x bn fr : length x = n -> iter = s_maxiter c -> run_ok iter 0 x bn (mkOut MAXITER x (s_maxiter c) fr).
Proof.
  intros HL ->. split; auto. cbn [o_iter o_x o_code]. split; [lia|]. split.
  - intros xs E Hs HE. rewrite Nat.sub_diag. cbn [pow]. now rewrite Rmult_1_l.
  - intros T K _ _ HK _ _. lia.
Qed.
Lemma run_next iter k x x' t bn o : Corr x t -> moved n x t x' -> run_ok (S iter) k x' bn o -> 0 <= bn ->
  (fltb (norm2 n (residual n M x b) * bn) (s_tol c) && (s_miniter c <=? iter + 1)%nat = false) -> run_ok iter (S k) x bn o.
Proof.
  intros HC HM (H1 & H2 & H3 & H4) Hbn HF. split; auto. split; [lia|]. split.
  - intros xs E Hs HE. pose proof (H3 xs (rho * E) Hs (corr_error Hrho Hlo Hp HC HM Hs HE)) as G.
    replace (o_iter o - iter)%nat with (S (o_iter o - S iter)) by lia. cbn [pow]. intros i Hi. specialize (G i Hi). cbn beta in *. lra.
  - intros T K T0 HT HK Hmin L. destruct (Nat.eq_dec K iter) as [ -> |N].
    + exfalso. rewrite Nat.sub_diag in L. cbn [pow] in L.
      assert (NR : norm2 n (residual n M x b) <= INR n * (Pn * T)).
      { apply norm_within; [apply Rmult_le_pos; auto; apply Pn_pos|]. intros i Hi. rewrite <- (HC i Hi). apply Pu_within; auto. }
      apply andb_false_iff in HF. destruct HF as [HF|HF]; [|apply Nat.leb_gt in HF; lia].
      cbn [fltb Rscalar] in HF. destruct (Rlt_dec _ _) as [|G]; [discriminate|]. apply G.
      apply Rle_lt_trans with (INR n * (Pn * T) * bn); [apply Rmult_le_compat_r; auto|lra].
    + apply (H4 (rho * T) K).
      * apply Rmult_le_pos; lra.
      * intros t' HC'. apply (corr_next Hrho Hlo Hp HC HM HC'). auto.
      * lia.
      * auto.
      * replace (K - iter)%nat with (S (K - S iter)) in L by lia. cbn [pow] in L. lra.
Qed.

Lemma jacobi_run pre d k bn : 0 <= bn -> (forall r z, length r = n -> length z = n -> exists z', pre r z = Ok z' /\ length z' = n) ->
  length d = n -> (forall i, (i < n)%nat -> fn d i = 1 / M i i) -> (forall i, (i < n)%nat -> p i = M i i) -> (forall i j, lo i j = 0) ->
  forall iter x r t s, (iter + k = s_maxiter c)%nat -> length x = n -> length r = n -> length t = n -> length s = n ->
  exists o, jacobi_loop c A pre b d bn k iter x r t s = Ok o /\ run_ok iter k x bn o.
Proof.
  intros Hbn Hpre Hd Hdi Ep El. destruct HA as (R1 & R2 & R3).
  induction k as [|k IH]; intros iter x r t s Hk Hx Hr Ht Hs; cbn [jacobi_loop].
  - unfold get_residual. rewrite Hm, (@v_nrm2_exact R Rscalar R_exact n) by auto. cbn [bind].
    eexists; split; [reflexivity|]. apply run_limit; auto. lia.
  - destruct (Hpre x s Hx Hs) as (s' & -> & Hs'). cbn [bind].
    rewrite (@v_copy_ok R n) by auto. cbn [bind].
    destruct (R3 x t Hx Ht) as (t' & -> & Ht' & HT). cbn [bind].
    destruct (@resid_axpyz R Rscalar R_exact c n M b Hm Hb x t' r Hx Ht' Hr HT) as (r' & -> & Hr' & HR). cbn [bind].
    rewrite (@v_nrm2_exact R Rscalar R_exact n) by auto. cbn [bind].
    rewrite (@v_mul_ok R Rscalar n) by auto. cbn [bind].
    rewrite (@v_add_ok R Rscalar n) by (auto; now rewrite zipw_length). cbn [bind].
    set (u := zipw fmul r' d).
    assert (Hu : length u = n) by (unfold u; now rewrite zipw_length).
    assert (HC : Corr x u).
    { intros i Hi. unfold Pu. destruct (Hp Hi) as (P0 & _). rewrite (@Sm_ext n _ (fun j => 0 * fn u j)) by (intros; now rewrite El).
      rewrite Sm_scal. unfold u. rewrite zipw_fn by lia. rewrite HR, Hdi, Ep by auto. rewrite Ep in P0 by auto. cbn [fmul Rscalar]. field. auto. }
    assert (HM : moved n x u (zipw fadd x u)) by (intros i Hi; rewrite zipw_fn by lia; reflexivity).
    unfold get_residual. rewrite Hm, (@v_nrm2_exact R Rscalar R_exact n u) by auto. cbn [bind].
    rewrite (@norm2_ext R Rscalar n (fn r') (residual n M x b)) by auto.
    destruct (fltb _ _ && _) eqn:E1.
    + eexists; split; [reflexivity|]. apply run_stop with u; auto. now rewrite zipw_length.
    + cbn [fnan Rscalar]. destruct (IH (S iter) (zipw fadd x u) u t' x) as (o & -> & HO); auto; [lia|now rewrite zipw_length|].
      eexists; split; [reflexivity|]. eapply run_next; eauto.
Qed.

Lemma sor_run lower pre d k bn : 0 <= bn -> (forall r z, length r = n -> length z = n -> pre r z = Ok r) -> length d = n ->
  (forall t r, length t = n -> length r = n -> exists t', lower d t r = Ok t' /\ length t' = n /\ solves_lower n M d r t') ->
  (forall i, (i < n)%nat -> fn d i = 1 / p i) -> (forall i j, lo i j = if (j <? i)%nat then M i j else 0) ->
  forall iter x r t s, (iter + k = s_maxiter c)%nat -> length x = n -> length r = n -> length t = n -> length s = n ->
  exists o, sor_loop c A lower pre b d bn k iter x r t s = Ok o /\ run_ok iter k x bn o.
Proof.
  intros Hbn Hpre Hd Hlow Hdi El. destruct HA as (R1 & R2 & R3).
  induction k as [|k IH]; intros iter x r t s Hk Hx Hr Ht Hs; cbn [sor_loop].
  - unfold get_residual. rewrite Hm, (@v_nrm2_exact R Rscalar R_exact n) by auto. cbn [bind].
    eexists; split; [reflexivity|]. apply run_limit; auto. lia.
  - rewrite Hpre by auto. cbn [bind].
    destruct (R3 x t Hx Ht) as (t' & -> & Ht' & HT). cbn [bind].
    destruct (@resid_axpyz R Rscalar R_exact c n M b Hm Hb x t' r Hx Ht' Hr HT) as (r' & -> & Hr' & HR). cbn [bind].
    rewrite (@v_nrm2_exact R Rscalar R_exact n) by auto. cbn [bind].
    destruct (Hlow t' r' Ht' Hr') as (u & -> & Hu & HU). cbn [bind].
    rewrite (@v_axpy_ok R Rscalar n) by auto. cbn [bind]. set (x' := zipw _ u x).
    assert (HL : length x' = n) by (unfold x'; now rewrite zipw_length).
    assert (HC : Corr x u).
    { intros i Hi. unfold Pu. destruct (Hp Hi) as (P0 & _).
      rewrite (@Sm_ext n _ (fun j => if (j <? i)%nat then M i j * fn u j else 0)) by (intros j Hj; rewrite El; destruct (j <? i)%nat; ring).
      rewrite Sm_prefix by lia. pose proof (HU i Hi) as G. cbn [fmul fsub Rscalar] in G. rewrite Hdi in G by auto. rewrite HR in G by auto.
      rewrite G. field. auto. }
    assert (HM : moved n x u x').
    { intros i Hi. unfold x'. rewrite zipw_fn by lia. cbn [fadd fmul f1 Rscalar]. ring. }
    unfold get_residual. rewrite Hm, (@v_nrm2_exact R Rscalar R_exact n r') by auto. cbn [bind].
    rewrite (@norm2_ext R Rscalar n (fn r') (residual n M x b)) by auto.
    destruct (fltb _ _ && _) eqn:E1.
    + eexists; split; [reflexivity|]. apply run_stop with u; auto.
    + cbn [fnan Rscalar]. destruct (IH (S iter) x' r' u x) as (o & -> & HO); auto; [lia|].
      eexists; split; [reflexivity|]. eapply run_next; eauto.
Qed.
End Loops.

Lemma norm_b_pos n (b : list R) : (exists i, (i < n)%nat /\ fn b i <> 0) -> 0 < norm2 n (fn b).
Proof. intros (i & Hi & H). eapply Rlt_le_trans; [apply (Rabs_pos_lt _ H)|]. apply (@within_norm n (fn b) i Hi). Qed.

(** from runs to [converges] *)
Lemma run_converges (solve : cfg (F:=R) -> res (outcome (F:=R))) c n M lo p rho b x bn t :
  0 <= rho < 1 -> (forall i j, (i < n)%nat -> (i <= j)%nat -> lo i j = 0) -> (forall i, (i < n)%nat -> p i <> 0) -> 0 < s_tol c ->
  corr n M lo p b x t -> limit_only_cuts solve c ->
  (forall m, exists o, solve (with_maxiter c m) = Ok o /\ run_ok (with_maxiter c m) n M lo p rho b 0 m x bn o) -> converges solve c.
Proof.
  intros Hrho Hlo Hp Ht HC Hcut Hrun. pose (T := Sm n (fun i => Rabs (fn t i))).
  assert (T0 : 0 <= T) by (apply Sm_pos; intros; apply Rabs_pos).
  destruct (@pow_small rho (INR n * (Pn n lo p * T) * bn) (s_tol c) Hrho Ht) as (K0 & HK0).
  pose (K := Nat.max K0 (s_miniter c)). destruct (Hrun (K + 1)%nat) as (o & E & _ & _ & _ & HS).
  destruct (HS T K) as (Hc & Hi); auto.
  - intros t' HC' i Hi. rewrite <- (@corr_unique n M lo p b Hlo Hp x t t' HC HC' i Hi). apply (@Sm_one n (fun i => Rabs (fn t i))); auto. intros. apply Rabs_pos.
  - lia.
  - cbn [s_miniter with_maxiter]. lia.
  - rewrite Nat.sub_0_r. cbn [s_tol with_maxiter]. apply HK0. lia.
  - exists o, (K + 1)%nat. split; auto. split; auto. intros m Hm. destruct (Hcut (K + 1)%nat o E) as (_ & H); [rewrite Hc; discriminate|].
    apply (H m). lia.
Qed.
