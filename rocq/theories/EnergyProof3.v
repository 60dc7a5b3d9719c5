(** * EnergyProof3: SOR with a larger iteration limit never ends with a larger error (proof support for C115). *)
From Coq Require Import Reals Psatz.
From Verif Require Import Base Scalar Spec SumFacts SolverModel SolverSpec EigModel SolverProof SolverProof2 ConvSpec ConvProof EnergySpec EnergyProof.
Set Implicit Arguments.
Local Open Scope R_scope.
#[local] Hint Extern 0 (Scalar R) => exact Rscalar : typeclass_instances.

Section SOR.
Variables (n : nat) (M : nat -> nat -> R) (w : R) (b : list R) (xs : nat -> R).
Hypothesis Hsym : symmetric n M.
Hypothesis Hw : 0 < w <= 2.
Hypothesis Hs : solution n M b xs.
Variables (c : cfg (F:=R)) (A : matif (F:=R)) (lower : list R -> list R -> list R -> res (list R)) (d : list R) (bn : R).
Hypothesis HA : represents A n M.
Hypothesis Hm : s_method c = 0%nat.
Hypothesis Hb : length b = n.
Hypothesis Hd : forall i, (i < n)%nat -> 0 < M i i.
Hypothesis Hlow : forall t r, length t = n -> length r = n -> exists t', lower d t r = Ok t' /\ length t' = n /\ solves_lower n M d r t'.
Hypothesis Hdi : forall i, (i < n)%nat -> fn d i = 1 / ep M w i.
Notation E0 := (energy n M xs).

Lemma sor_loop_mono m1 m2 k1 : forall k2 iter x r t s, (k1 <= k2)%nat -> length x = n -> length r = n -> length t = n -> length s = n ->
  exists o1 o2, sor_loop (with_maxiter c m1) A lower v_copy b d bn k1 iter x r t s = Ok o1 /\
    sor_loop (with_maxiter c m2) A lower v_copy b d bn k2 iter x r t s = Ok o2 /\ length (o_x o1) = n /\ E0 (o_x o2) <= E0 (o_x o1) <= E0 x.
Proof.
  pose proof HA as (R1 & R2 & R3). destruct Hw as (W1 & W2).
  assert (Hm1 : forall m, s_method (with_maxiter c m) = 0%nat) by auto.
  assert (ONE : forall iter x r t s, length x = n -> length r = n -> length t = n -> length s = n ->
     exists x' r' t' s', length x' = n /\ length r' = n /\ length t' = n /\ length s' = n /\ E0 x' <= E0 x /\ forall m k,
       sor_loop (with_maxiter c m) A lower v_copy b d bn (S k) iter x r t s =
         if fltb (norm2 n (fn r') * bn) (s_tol c) && (s_miniter c <=? iter + 1)%nat then Ok (mkOut SUCCESS x' (iter + 1) (norm2 n (fn r')))
         else sor_loop (with_maxiter c m) A lower v_copy b d bn k (S iter) x' r' t' s').
  { intros iter x r t s Hx Hr Ht Hs'.
    destruct (R3 x t Hx Ht) as (t' & Et & Ht' & HT).
    destruct (@resid_axpyz R Rscalar R_exact c n M b Hm Hb x t' r Hx Ht' Hr HT) as (r' & Er & Hr' & HR).
    destruct (Hlow t' r' Ht' Hr') as (u & Eu & Hu & HU).
    set (x' := zipw (fun a b => b + 1 * a) u x).
    assert (HL : length x' = n) by (unfold x'; now rewrite zipw_length).
    assert (HC : corr n M (elo M) (ep M w) b x u).
    { intros i Hi. unfold Pu. pose proof (Hd Hi) as Di.
      rewrite (@Sm_ext n _ (fun j => if (j <? i)%nat then M i j * fn u j else 0)) by (intros j Hj; unfold elo; destruct (j <? i)%nat; ring).
      rewrite Sm_prefix by lia. pose proof (HU i Hi) as G. cbn [fmul fsub Rscalar] in G. rewrite Hdi in G by auto. rewrite HR in G by auto.
      rewrite G. unfold ep. field. split; lra. }
    assert (HM : moved n x u x').
    { intros i Hi. unfold x'. rewrite zipw_fn by lia. ring. }
    pose proof (sweep_energy Hsym W1 Hs HC HM) as HE. pose proof (@gain_pos n M w W1 Hd (fn u) W2) as GP.
    exists x', r', u, x. split; [auto|]. split; [auto|]. split; [auto|]. split; [auto|]. split; [lra|].
    intros m k. cbn [sor_loop]. rewrite (@v_copy_ok R n) by auto. cbn [bind]. rewrite Et. cbn [bind]. rewrite Er. cbn [bind].
    rewrite (@v_nrm2_exact R Rscalar R_exact n) by auto. cbn [bind]. rewrite Eu. cbn [bind].
    rewrite (@v_axpy_ok R Rscalar n) by auto. cbn [bind]. change (zipw _ u x) with x'.
    unfold get_residual. rewrite (Hm1 m), (@v_nrm2_exact R Rscalar R_exact n) by auto. cbn [bind fnan Rscalar]. reflexivity. }
  induction k1 as [|k1 IH]; intros k2.
  - induction k2 as [|k2 IH2]; intros iter x r t s _ Hx Hr Ht Hs'.
    + cbn [sor_loop]. unfold get_residual. rewrite !Hm1, (@v_nrm2_exact R Rscalar R_exact n) by auto. cbn [bind].
      do 2 eexists. split; [reflexivity|]. split; [reflexivity|]. cbn [o_x]. split; auto. lra.
    + destruct (ONE iter x r t s) as (x' & r' & t' & s' & Lx & Lr & Lt & Ls & G1 & EQ); auto.
      rewrite EQ. destruct (IH2 (S iter) x' r' t' s') as (o1 & o2 & E1 & E2 & L & G); auto; [lia|].
      cbn [sor_loop]. unfold get_residual. rewrite (Hm1 m1), (@v_nrm2_exact R Rscalar R_exact n) by auto. cbn [bind].
      eexists. destruct (fltb _ _ && _).
      * eexists. split; [reflexivity|]. split; [reflexivity|]. cbn [o_x]. split; auto. lra.
      * exists o2. split; [reflexivity|]. split; [exact E2|]. cbn [o_x]. split; auto. lra.
  - destruct k2 as [|k2]; [lia|]. intros iter x r t s Hk Hx Hr Ht Hs'.
    destruct (ONE iter x r t s) as (x' & r' & t' & s' & Lx & Lr & Lt & Ls & G1 & EQ); auto.
    rewrite !EQ. destruct (fltb _ _ && _).
    + do 2 eexists. split; [reflexivity|]. split; [reflexivity|]. cbn [o_x]. split; auto. lra.
    + destruct (IH k2 (S iter) x' r' t' s') as (o1 & o2 & E1 & E2 & L & G); auto; [lia|].
      exists o1, o2. split; auto. split; auto. split; auto. lra.
Qed.
End SOR.
