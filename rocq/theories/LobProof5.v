(** * LobProof5: whole calls of LOBPCG::solve; raising the iteration limit (proof support for C73-C76). *)
From Coq Require Import Ring.
From Verif Require Import Base Scalar Spec SumFacts SolverModel SolverSpec SolverProof LobModel LobSpec LobProof LobProof2 LobProof3.
Set Implicit Arguments.

Section Calls.
Context {F : Type} {SF : Scalar F}.
Local Open Scope F_scope.
Hypothesis Hex : exact SF.
Hypothesis Hlt : lt_strict_law (F:=F).
Variables (A : matif (F:=F)) (n : nat) (M : nat -> nat -> F).
Hypothesis HA : represents A n M.
Variable (sygvd : sygvd_t (F:=F)).

(** a call that did not throw before the iteration: the initial state *)
Lemma lobpcg_start c s pre l xcol x : pre_ok A n pre ->
  (exists apply st, pre A = Ok apply /\
     (forall r z, length r = n -> length z = n -> exists z', apply r z = Ok z' /\ length z' = n) /\
     linv (length l) n M st /\ g_l st = l /\
     forall mx fuel, lobpcg fuel (with_maxiter c mx) s A pre sygvd l xcol x = lob_loop (with_maxiter c mx) A apply sygvd (length l) n fuel 0 false 0 st 0 0) \/
  (forall mx fuel' o, lobpcg fuel' (with_maxiter c mx) s A pre sygvd l xcol x <> Ok o) /\
  (forall mx fuel', lobpcg fuel' (with_maxiter c mx) s A pre sygvd l xcol x <> NoFuel).
Proof.
  intros (apply & Ep & Ha). unfold lobpcg, require_.
  destruct (mi_col A =? xcol)%nat eqn:E1; cbn [bind]; [|right; split; intros; discriminate].
  destruct (length l =? length x)%nat eqn:E2; cbn [bind]; [|right; split; intros; discriminate].
  apply Nat.eqb_eq in E2. rewrite Ep. cbn [bind].
  assert (En : mi_col A = n) by apply HA. rewrite En.
  pose proof (@start_rows_ok F SF Hex (length l) n s x (eq_sym E2)) as Hs.
  destruct (start_rows n s x) as [xs| | | |]; cbn [safe bind] in *; try (right; split; intros; discriminate); [|destruct Hs].
  destruct (@start_inv F SF Hex A (length l) n M HA l xs eq_refl Hs) as (init & Ei & Hi). rewrite Ei. cbn [bind].
  left. exists apply, (start_state (length l) n l xs init). auto.
Qed.

Definition same_code (m n : nat) (pre : precond (F:=F)) (c : cfg (F:=F)) (o : lout (F:=F)) : Prop :=
  exists apply, pre A = Ok apply /\
    (forall r z, length r = n -> length z = n -> exists z', apply r z = Ok z' /\ length z' = n) /\
    final_ok c apply sygvd m n M o.

Lemma with_maxiter_id (c : cfg (F:=F)) : with_maxiter c (s_maxiter c) = c.
Proof. now destruct c. Qed.

Lemma lobpcg_final fuel c s pre l xcol x li lr o : pre_ok A n pre -> s_lib c = 0%nat ->
  lobpcg_solve fuel c s A pre sygvd l xcol x li lr = Ok o -> same_code (length l) n pre c o.
Proof.
  intros Hp Hlib H. unfold lobpcg_solve in H. rewrite Hlib in H.
  destruct (@lobpcg_start c s pre l xcol x Hp) as [(apply & st & Ep & Ha & Hi & _ & E)|(E & _)].
  - specialize (E (s_maxiter c) fuel). rewrite with_maxiter_id in E. rewrite E in H. exists apply. split; auto. split; auto.
    eapply (lob_loop_ok Hex HA Ha Hlt); [|exact Hi| |exact H]; [lia|].
    unfold last_step. destruct (s_maxiter c) eqn:Em; [right; left; auto|left; lia].
  - specialize (E (s_maxiter c) fuel o). rewrite with_maxiter_id in E. contradiction.
Qed.

Lemma lobpcg_ends c s pre l xcol x li lr : pre_ok A n pre ->
  (forall call Sa Sb, shaped (2 * length l) (2 * length l) Sa -> shaped (2 * length l) (2 * length l) Sb ->
    judge (length l) true (fst (fst (sygvd call Sa Sb))) <> VRestart) ->
  lobpcg_solve (2 * s_maxiter c + 1) c s A pre sygvd l xcol x li lr <> NoFuel.
Proof.
  intros Hp Hn. unfold lobpcg_solve. destruct (s_lib c); [|discriminate].
  destruct (@lobpcg_start c s pre l xcol x Hp) as [(apply & st & Ep & Ha & Hi & _ & E)|(_ & E)].
  - specialize (E (s_maxiter c) (2 * s_maxiter c + 1)%nat). rewrite with_maxiter_id in E. rewrite E.
    eapply (@lob_loop_ends F SF Hex c A apply sygvd (length l) n M HA Ha Hlt Hn); auto; [lia|lia|discriminate].
  - specialize (E (s_maxiter c) (2 * s_maxiter c + 1)%nat). now rewrite with_maxiter_id in E.
Qed.

(** more passes do not change a result *)
Lemma lobpcg_fuel fuel c s pre l xcol x li lr o d :
  lobpcg_solve fuel c s A pre sygvd l xcol x li lr = Ok o -> lobpcg_solve (fuel + d) c s A pre sygvd l xcol x li lr = Ok o.
Proof.
  unfold lobpcg_solve, lobpcg. destruct (s_lib c); auto. intros H.
  destruct (require_ (mi_col A =? xcol)%nat); cbn [bind] in *; try discriminate.
  destruct (require_ (length l =? length x)%nat); cbn [bind] in *; try discriminate.
  destruct (pre A); cbn [bind] in *; try discriminate.
  destruct (start_rows (mi_col A) s x); cbn [bind] in *; try discriminate.
  destruct (traverse _ _); cbn [bind] in *; try discriminate. now apply lob_loop_fuel.
Qed.

(** ** limits k and k + 1 *)
Section Limits.
Variables (c : cfg (F:=F)) (pre : list F -> list F -> res (list F)) (m k : nat).
Hypothesis Hpre : forall r z, length r = n -> length z = n -> exists z', pre r z = Ok z' /\ length z' = n.
Local Notation ck := (with_maxiter c k).
Local Notation ck1 := (with_maxiter c (S k)).

Lemma reach fuel : forall iter sg call st resid info o,
  (iter <= k)%nat -> linv m n M st -> last_step ck pre sygvd m n M iter st resid info ->
  lob_loop ck A pre sygvd m n fuel iter sg call st resid info = Ok o -> lo_code o = MAXITER ->
  exists sg' call' st' resid' fuel', g_l st' = lo_l o /\ g_x st' = lo_x o /\ linv m n M st' /\
    last_step ck pre sygvd m n M k st' resid' (lo_info o) /\
    forall d, lob_loop ck1 A pre sygvd m n (fuel + d) iter sg call st resid info =
              lob_loop ck1 A pre sygvd m n (fuel' + d) k sg' call' st' resid' (lo_info o).
Proof.
  induction fuel as [|fuel IH]; intros iter sg call st resid info o Hit Hst Hl H Hc; [discriminate|].
  cbn [lob_loop] in H. cbn [s_maxiter with_maxiter] in H. destruct (iter <? k) eqn:Ei.
  - apply Nat.ltb_lt in Ei. apply bind_ok in H. destruct H as (p & Ep & H).
    pose proof (@lob_pass_ok F SF Hex (ck) A pre sygvd m n M HA Hpre Hlt iter sg call st Hst) as Hp. rewrite Ep in Hp. cbn [safe] in Hp.
    assert (Step : forall d, lob_loop ck1 A pre sygvd m n (S fuel + d) iter sg call st resid info =
      match p with
      | Restart i => lob_loop ck1 A pre sygvd m n (fuel + d) iter true (S call) st resid i
      | Done o => Ok o
      | Next st' resid' i => lob_loop ck1 A pre sygvd m n (fuel + d) (S iter) false (S call) st' resid' i
      end).
    { intros d. cbn [lob_loop Nat.add]. cbn [s_maxiter with_maxiter]. rewrite (proj2 (Nat.ltb_lt iter (S k))) by lia.
      change (lob_pass ck1 A pre sygvd m n iter sg call st) with (lob_pass ck A pre sygvd m n iter sg call st). rewrite Ep. reflexivity. }
    destruct p as [i|o'|st' resid' i].
    + destruct (IH iter true (S call) st resid i o) as (a1 & a2 & a3 & a4 & a5 & b1 & b2 & b3 & b4 & b5); auto.
      { left. exact Ei. }
      exists a1, a2, a3, a4, a5. repeat (split; auto). intros d. rewrite Step. apply b5.
    + exfalso. injection H as ->. destruct Hp as (_ & _ & [(E & _)|(E & _)]); rewrite E in Hc; discriminate.
    + destruct Hp as (P1 & rs & P2 & P3 & _).
      destruct (IH (S iter) false (S call) st' resid' i o) as (a1 & a2 & a3 & a4 & a5 & b1 & b2 & b3 & b4 & b5); auto.
      { right; right. eauto 10. }
      exists a1, a2, a3, a4, a5. repeat (split; auto). intros d. rewrite Step. apply b5.
  - apply Nat.ltb_ge in Ei. injection H as <-. cbn [lo_l lo_x lo_info]. assert (iter = k) by lia. subst iter.
    exists sg, call, st, resid, (S fuel). auto 10.
Qed.

Lemma last_pass fuel : forall sg call st resid info o, linv m n M st ->
  lob_loop ck1 A pre sygvd m n fuel k sg call st resid info = Ok o -> lo_code o <> RESIDUAL_NAN ->
  exists small call' rs, step pre sygvd m n M small call' st (lo_l o) (lo_x o) rs (lo_info o).
Proof.
  induction fuel as [|fuel IH]; intros sg call st resid info o Hst H Hc; [discriminate|].
  cbn [lob_loop] in H. cbn [s_maxiter with_maxiter] in H. rewrite (proj2 (Nat.ltb_lt k (S k))) in H by lia.
  apply bind_ok in H. destruct H as (p & Ep & H).
  pose proof (@lob_pass_ok F SF Hex (ck1) A pre sygvd m n M HA Hpre Hlt k sg call st Hst) as Hp. rewrite Ep in Hp. cbn [safe] in Hp.
  destruct p as [i|o'|st' resid' i].
  - eapply IH; eauto.
  - injection H as ->. destruct Hp as (_ & _ & [(E & _)|(_ & _ & _ & rs & E & _)]); [contradiction|]. eauto.
  - destruct Hp as (P1 & rs & P2 & _). destruct fuel as [|fuel]; [discriminate|]. cbn [lob_loop] in H. cbn [s_maxiter with_maxiter] in H.
    rewrite Nat.ltb_irrefl in H. injection H as <-. cbn [lo_l lo_x lo_info]. eauto.
Qed.
End Limits.

(** the two steps behind the results of limits k and k + 1 *)
Lemma two_limits fuel1 fuel2 c s pre l xcol x li lr k o1 o2 : pre_ok A n pre -> s_lib c = 0%nat -> (1 <= k)%nat ->
  lobpcg_solve fuel1 (with_maxiter c k) s A pre sygvd l xcol x li lr = Ok o1 ->
  lobpcg_solve fuel2 (with_maxiter c (S k)) s A pre sygvd l xcol x li lr = Ok o2 ->
  lo_code o1 = MAXITER -> lo_code o2 <> RESIDUAL_NAN ->
  exists apply st0 small0 call0 rs0 st small call rs, linv (length l) n M st0 /\ linv (length l) n M st /\
    g_l st = lo_l o1 /\ g_x st = lo_x o1 /\
    step apply sygvd (length l) n M small0 call0 st0 (lo_l o1) (lo_x o1) rs0 (lo_info o1) /\
    step apply sygvd (length l) n M small call st (lo_l o2) (lo_x o2) rs (lo_info o2).
Proof.
  intros Hp Hlib Hk H1 H2 C1 C2.
  apply (@lobpcg_fuel fuel2 _ s pre l xcol x li lr o2 fuel1) in H2. unfold lobpcg_solve in H1, H2. cbn [s_lib with_maxiter] in H1, H2. rewrite Hlib in H1, H2.
  destruct (@lobpcg_start c s pre l xcol x Hp) as [(apply & st & Ep & Ha & Hi & _ & E)|(E & _)].
  2:{ apply E in H1. contradiction. }
  rewrite E in H1, H2.
  destruct (@reach c apply (length l) k Ha fuel1 0%nat false 0%nat st 0 0%Z o1) as (sg & call & st' & resid & fuel' & G1 & G2 & G3 & G4 & G5); auto; [lia|left; cbn [s_maxiter with_maxiter]; lia|].
  rewrite Nat.add_comm, G5 in H2. destruct (@last_pass c apply (length l) k Ha _ _ _ _ _ _ _ G3 H2 C2) as (small & call' & rs & S2).
  destruct G4 as [G4|[G4|(small0 & call0 & st0 & rs0 & G4)]]; [cbn [s_maxiter with_maxiter] in G4; lia|cbn [s_maxiter with_maxiter] in G4; lia|].
  destruct G4 as (L0 & S0 & _). rewrite G1, G2 in S0. exists apply, st0, small0, call0, rs0, st', small, call', rs. auto 10.
Qed.
End Calls.
