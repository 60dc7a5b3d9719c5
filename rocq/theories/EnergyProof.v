(** * EnergyProof: one SOR sweep decreases the energy norm of the error by exactly (2/w - 1) sum M_ii t_i^2
    (proof support for C114). *)
From Coq Require Import Reals Psatz.
From Verif Require Import Base Scalar Spec SumFacts SolverModel SolverSpec EigModel SolverProof SolverProof2 ConvSpec ConvProof EnergySpec.
Set Implicit Arguments.
Local Open Scope R_scope.
#[local] Hint Extern 0 (Scalar R) => exact Rscalar : typeclass_instances.

Section Energy.
Variables (n : nat) (M : nat -> nat -> R) (w : R).
Hypothesis Hsym : symmetric n M.
Hypothesis Hw : 0 < w.
Definition elo (i j : nat) : R := if (j <? i)%nat then M i j else 0.
Definition ep (i : nat) : R := 1 / w * M i i.
Definition gain (t : nat -> R) : R := (2 / w - 1) * Sm n (fun i => M i i * (t i * t i)).
Notation Pt := (Pu n elo ep).

Lemma mv_plus u v i : mv n M (fun k => u k + v k) i = mv n M u i + mv n M v i.
Proof. unfold mv. cbn [fmul Rscalar]. rewrite <- Sm_plus. apply Sm_ext. intros. ring. Qed.

Lemma quad_plus u t : quad n M (fun i => u i + t i) = quad n M u + 2 * Sm n (fun i => t i * mv n M u i) + quad n M t.
Proof.
  assert (S : Sm n (fun i => u i * mv n M t i) = Sm n (fun i => t i * mv n M u i)).
  { unfold mv. cbn [fmul Rscalar].
    rewrite (@Sm_ext n (fun i => u i * Sm n (fun j => M i j * t j)) (fun i => Sm n (fun j => u i * (M i j * t j)))) by (intros; now rewrite Sm_scal).
    rewrite (@Sm_ext n (fun i => t i * Sm n (fun j => M i j * u j)) (fun i => Sm n (fun j => t i * (M i j * u j)))) by (intros; now rewrite Sm_scal).
    rewrite (sum_swap R_exact). apply Sm_ext. intros i Hi. apply Sm_ext. intros j Hj. rewrite (Hsym Hi Hj). ring. }
  unfold quad. rewrite (@Sm_ext n _ (fun i => (u i * mv n M u i + t i * mv n M u i) + (u i * mv n M t i + t i * mv n M t i)))
    by (intros; rewrite mv_plus; ring).
  rewrite !Sm_plus, S. ring.
Qed.

Lemma quad_split t : quad n M t = Sm n (fun i => M i i * (t i * t i)) + 2 * Sm n (fun i => t i * Sm n (fun j => elo i j * t j)).
Proof.
  unfold quad, mv. cbn [fmul Rscalar].
  assert (E : forall i, (i < n)%nat -> t i * Sm n (fun j => M i j * t j) =
    M i i * (t i * t i) + (Sm n (fun j => t i * (elo i j * t j)) + Sm n (fun j => t i * (elo j i * t j)))).
  { intros i Hi. rewrite <- Sm_plus. rewrite (@Sm_split n i (fun j => M i j * t j) Hi).
    rewrite Rmult_plus_distr_l, <- Sm_scal. f_equal; [ring|]. apply Sm_ext. intros j Hj. unfold elo.
    destruct (Nat.eqb_spec j i) as [->|N]; [rewrite Nat.ltb_irrefl; ring|].
    destruct (Nat.ltb_spec j i); destruct (Nat.ltb_spec i j); try lia; [ring|]. rewrite (Hsym Hj Hi). ring. }
  rewrite (@Sm_ext n _ _ E), !Sm_plus.
  rewrite (sum_swap R_exact n n (fun i j => t i * (elo j i * t j))).
  rewrite (@Sm_ext n (fun j => Sm n (fun i => t i * (elo j i * t j))) (fun i => Sm n (fun j => t i * (elo i j * t j))))
    by (intros; apply Sm_ext; intros; ring).
  rewrite (@Sm_ext n (fun i => t i * Sm n (fun j => elo i j * t j)) (fun i => Sm n (fun j => t i * (elo i j * t j)))) by (intros; now rewrite Sm_scal).
  ring.
Qed.

(** the error u moves to u + t where P t = - M u *)
Lemma sweep_identity u t : (forall i, (i < n)%nat -> Pt t i = - mv n M u i) -> quad n M (fun i => u i + t i) = quad n M u - gain t.
Proof.
  intros H. rewrite quad_plus. rewrite (@Sm_ext n (fun i => t i * mv n M u i) (fun i => -1 * (t i * Sm n (fun j => elo i j * t j)) + - (1 / w) * (M i i * (t i * t i)))).
  - rewrite Sm_plus, !Sm_scal, (quad_split t). unfold gain. field. lra.
  - intros i Hi. replace (mv n M u i) with (- Pt t i) by (rewrite H by auto; ring). unfold Pu, ep. ring.
Qed.

Variables (b : list R) (xs : nat -> R).
Hypothesis Hs : solution n M b xs.
Lemma sweep_energy x t x' : corr n M elo ep b x t -> moved n x t x' -> energy n M xs x' = energy n M xs x - gain (fn t).
Proof.
  intros HC HM. unfold energy. rewrite <- sweep_identity.
  - unfold quad. apply Sm_ext. intros i Hi. rewrite HM by auto. f_equal; [ring|]. unfold mv. apply Sm_ext. intros j Hj. cbn [fmul Rscalar]. rewrite HM by auto. ring.
  - intros i Hi. rewrite HC by auto. unfold residual. rewrite <- Hs by auto. unfold mv. cbn [fmul fsub Rscalar].
    replace (- Sm n (fun j => M i j * (fn x j - xs j))) with (-1 * Sm n (fun j => M i j * (fn x j - xs j))) by ring.
    rewrite <- Sm_scal, <- Sm_minus. apply Sm_ext. intros. ring.
Qed.

(** ** runs *)
Variables (c : cfg (F:=R)) (A : matif (F:=R)).
Hypothesis HA : represents A n M.
Hypothesis Hm : s_method c = 0%nat.
Hypothesis Hb : length b = n.
Hypothesis Hd : forall i, (i < n)%nat -> 0 < M i i.
Notation E0 := (energy n M xs).

(** what a run does to the error, and when it stops: [dec] is gained by each iteration that does not stop *)
Definition run_en (dec : R) (iter k : nat) (x : list R) (o : outcome (F:=R)) : Prop :=
  length (o_x o) = n /\ (iter <= o_iter o)%nat /\ (w <= 2 -> E0 (o_x o) <= E0 x) /\ (w = 2 -> E0 (o_x o) = E0 x) /\
  (forall K, w < 2 -> psd n M -> 0 < dec -> (iter <= K < iter + k)%nat ->
     E0 x < INR (K + 1 - Nat.max iter (s_miniter c - 1)) * dec -> o_code o = SUCCESS /\ (o_iter o <= K + 1)%nat).

Lemma gain_pos t : w <= 2 -> 0 <= gain t.
Proof.
  intros W. unfold gain. apply Rmult_le_pos.
  - assert (1 <= 2 / w); [|lra]. apply Rmult_le_reg_r with w; auto. unfold Rdiv. rewrite Rmult_assoc, Rinv_l by lra. lra.
  - apply Sm_pos. intros i Hi. apply Rmult_le_pos; [now apply Rlt_le, Hd|]. apply Rle_0_sqr.
Qed.
Lemma gain_two t : w = 2 -> gain t = 0.
Proof. intros E. unfold gain. rewrite E. replace (2 / 2 - 1) with 0 by field. ring. Qed.

Lemma sor_run_en lower d k bn dec : length d = n ->
  (forall t r, length t = n -> length r = n -> exists t', lower d t r = Ok t' /\ length t' = n /\ solves_lower n M d r t') ->
  (forall i, (i < n)%nat -> fn d i = 1 / ep i) ->
  (forall t, s_tol c <= norm2 n (Pt t) * bn -> dec <= gain t) ->
  forall iter x r t s, (iter + k = s_maxiter c)%nat -> length x = n -> length r = n -> length t = n -> length s = n ->
  exists o, sor_loop c A lower v_copy b d bn k iter x r t s = Ok o /\ run_en dec iter k x o.
Proof.
  intros Hdl Hlow Hdi Hdec. destruct HA as (R1 & R2 & R3).
  induction k as [|k IH]; intros iter x r t s Hk Hx Hr Ht Hs'; cbn [sor_loop].
  - unfold get_residual. rewrite Hm, (@v_nrm2_exact R Rscalar R_exact n) by auto. cbn [bind].
    eexists; split; [reflexivity|]. unfold run_en. cbn [o_x o_iter o_code]. repeat split; auto; try lra; try lia.
  - rewrite (@v_copy_ok R n) by auto. cbn [bind].
    destruct (R3 x t Hx Ht) as (t' & -> & Ht' & HT). cbn [bind].
    destruct (@resid_axpyz R Rscalar R_exact c n M b Hm Hb x t' r Hx Ht' Hr HT) as (r' & -> & Hr' & HR). cbn [bind].
    rewrite (@v_nrm2_exact R Rscalar R_exact n) by auto. cbn [bind].
    destruct (Hlow t' r' Ht' Hr') as (u & -> & Hu & HU). cbn [bind].
    rewrite (@v_axpy_ok R Rscalar n) by auto. cbn [bind]. set (x' := zipw _ u x).
    assert (HL : length x' = n) by (unfold x'; now rewrite zipw_length).
    assert (HC : corr n M elo ep b x u).
    { intros i Hi. unfold Pu. pose proof (Hd Hi) as Di.
      rewrite (@Sm_ext n _ (fun j => if (j <? i)%nat then M i j * fn u j else 0)) by (intros j Hj; unfold elo; destruct (j <? i)%nat; ring).
      rewrite Sm_prefix by lia. pose proof (HU i Hi) as G. cbn [fmul fsub Rscalar] in G. rewrite Hdi in G by auto. rewrite HR in G by auto.
      rewrite G. unfold ep. field. split; lra. }
    assert (HM : moved n x u x').
    { intros i Hi. unfold x'. rewrite zipw_fn by lia. cbn [fadd fmul f1 Rscalar]. ring. }
    pose proof (sweep_energy HC HM) as HE. pose proof (gain_pos (fn u)) as GP. pose proof (@gain_two (fn u)) as G2.
    unfold get_residual. rewrite Hm, (@v_nrm2_exact R Rscalar R_exact n r') by auto. cbn [bind].
    rewrite (@norm2_ext R Rscalar n (fn r') (residual n M x b)) by auto.
    destruct (fltb _ _ && _) eqn:E1.
    + eexists; split; [reflexivity|]. unfold run_en. cbn [o_x o_iter o_code]. split; auto. split; [lia|]. split; [intros W; specialize (GP W); lra|].
      split; [intros W; specialize (G2 W); lra|]. intros K _ _ _ HK _. split; auto. lia.
    + cbn [fnan Rscalar]. destruct (IH (S iter) x' r' u x) as (o & -> & (L1 & L2 & L3 & L4 & L5)); auto; [lia|].
      eexists; split; [reflexivity|]. split; auto. split; [lia|].
      split; [intros W; specialize (GP W); specialize (L3 W); lra|].
      split; [intros W; specialize (G2 W); specialize (L4 W); lra|].
      intros K W HP D0 HK HS. apply andb_false_iff in E1.
      assert (P' : 0 <= E0 x') by apply HP. specialize (GP ltac:(lra)).
      destruct (Nat.leb_spec (s_miniter c) (iter + 1)) as [Lm|Lm].
      * destruct E1 as [E1|E1]; [|discriminate].
        assert (DG : dec <= gain (fn u)).
        { apply Hdec. cbn [fltb Rscalar] in E1. destruct (Rlt_dec _ _) as [|G]; [discriminate|].
          rewrite (@norm2_ext R Rscalar n (Pt (fn u)) (residual n M x b)) by auto. cbn [fmul Rscalar] in G. lra. }
        replace (Nat.max iter (s_miniter c - 1)) with iter in HS by lia.
        destruct (Nat.eq_dec K iter) as [->|N].
        -- exfalso. replace (iter + 1 - iter)%nat with 1%nat in HS by lia. cbn [INR] in HS. lra.
        -- apply L5; auto; [lia|]. replace (Nat.max (S iter) (s_miniter c - 1)) with (S iter) by lia.
           replace (K + 1 - iter)%nat with (S (K + 1 - S iter)) in HS by lia. rewrite S_INR in HS. lra.
      * replace (Nat.max iter (s_miniter c - 1)) with (s_miniter c - 1)%nat in HS by lia.
        assert (Hc : (0 < K + 1 - (s_miniter c - 1))%nat).
        { destruct (K + 1 - (s_miniter c - 1))%nat; [|lia]. cbn [INR] in HS. pose proof (HP (fun i => fn x i - xs i)) as Q. fold (E0 x) in Q. lra. }
        apply L5; auto; [lia|]. replace (Nat.max (S iter) (s_miniter c - 1)) with (s_miniter c - 1)%nat by lia. lra.
Qed.

(** a bound on the gain of an iteration whose residual is not small *)
Lemma gain_bound tol bn : w < 2 -> 0 < tol -> 0 < bn -> exists dec, 0 < dec /\ forall t, tol <= norm2 n (Pt t) * bn -> dec <= gain t.
Proof.
  intros W T0 B0.
  (* the smallest diagonal element *)
  assert (MD : exists m, 0 < m /\ forall i, (i < n)%nat -> m <= M i i).
  { clear - Hd. induction n as [|k IH]; [exists 1; split; [lra|intros; lia]|].
    destruct IH as (m & m0 & H); [intros; apply Hd; lia|]. exists (Rmin m (M k k)). split; [apply Rmin_glb_lt; auto|].
    intros i Hi. destruct (Nat.eq_dec i k) as [->|N]; [apply Rmin_r|]. eapply Rle_trans; [apply Rmin_l|apply H; lia]. }
  destruct MD as (m & m0 & Hmin).
  set (C := INR n * Pn n elo ep * bn + 1).
  assert (C0 : 0 < C).
  { unfold C. pose proof (pos_INR n). pose proof (@Pn_pos n elo ep).
    assert (0 <= INR n * Pn n elo ep * bn) by (repeat apply Rmult_le_pos; lra). lra. }
  assert (G0 : 0 < 2 / w - 1).
  { assert (1 < 2 / w); [|lra]. apply Rmult_lt_reg_r with w; auto. unfold Rdiv. rewrite Rmult_assoc, Rinv_l by lra. lra. }
  exists ((2 / w - 1) * (m * ((tol / C) * (tol / C)))). split.
  { assert (0 < tol / C) by (apply Rdiv_lt_0_compat; auto). apply Rmult_lt_0_compat; auto. apply Rmult_lt_0_compat; auto. now apply Rmult_lt_0_compat. }
  intros t Ht. unfold gain. apply Rmult_le_compat_l; [lra|].
  (* some component of t is large *)
  assert (BG : exists i, (i < n)%nat /\ tol / C <= Rabs (t i)).
  { assert (D : (exists i, (i < n)%nat /\ tol / C <= Rabs (t i)) \/ within n (tol / C) t).
    { generalize (tol / C). intros z. clear. induction n as [|k IH]; [right; intros i Hi; lia|].
      destruct IH as [(i & Hi & H)|H]; [left; exists i; split; auto; lia|].
      destruct (Rle_dec z (Rabs (t k))) as [L|L]; [left; exists k; split; auto|].
      right. intros i Hi. destruct (Nat.eq_dec i k) as [->|N]; [lra|apply H; lia]. }
    destruct D as [D|D]; auto. exfalso.
    assert (T1 : 0 <= tol / C) by (apply Rlt_le, Rdiv_lt_0_compat; auto).
    assert (N1 : norm2 n (Pt t) <= INR n * (Pn n elo ep * (tol / C))).
    { apply norm_within; [apply Rmult_le_pos; auto; apply Pn_pos|]. intros i Hi. now apply Pu_within. }
    assert (N2 : norm2 n (Pt t) * bn <= INR n * Pn n elo ep * bn * (tol / C)).
    { replace (INR n * Pn n elo ep * bn * (tol / C)) with (INR n * (Pn n elo ep * (tol / C)) * bn) by ring. apply Rmult_le_compat_r; lra. }
    replace (INR n * Pn n elo ep * bn) with (C - 1) in N2 by (unfold C; ring).
    assert (N3 : (C - 1) * (tol / C) = tol - tol / C) by (field; lra).
    assert (0 < tol / C) by (apply Rdiv_lt_0_compat; auto). lra. }
  destruct BG as (i & Hi & Bi).
  apply Rle_trans with (M i i * (t i * t i)).
  - apply Rmult_le_compat; try lra.
    + apply Rle_0_sqr.
    + apply Hmin; auto.
    + assert (0 < tol / C) by (apply Rdiv_lt_0_compat; auto).
      replace (t i * t i) with (Rabs (t i) * Rabs (t i)) by (rewrite <- Rabs_mult; apply Rabs_pos_eq, Rle_0_sqr).
      apply Rmult_le_compat; lra.
  - apply (@Sm_one n (fun i => M i i * (t i * t i))); auto. intros j Hj. apply Rmult_le_pos; [now apply Rlt_le, Hd|apply Rle_0_sqr].
Qed.
End Energy.
