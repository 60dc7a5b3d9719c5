(** * HistProof2: the four solvers as instances of the generic loop (proof support for C117). *)
From Verif Require Import Base Scalar SolverModel SolverSpec HistModel HistSpec HistProof.
Set Implicit Arguments.

Section Instances.
Context {F : Type} {SF : Scalar F}.
Local Open Scope F_scope.
Variables (c : cfg (F:=F)) (A : matif (F:=F)) (pre : list F -> list F -> res (list F)).

Definition judge {St} (iter : nat) (resid : F) (r x : list F) (st : St) : res (verdict St) :=
  if fltb resid (s_tol c) && (s_miniter c <=? iter + 1) then fr <- get_residual c r ;; Ok (@Halt F St (mkOut SUCCESS x (iter + 1) fr) (Some resid))
  else if fnan resid then fr <- get_residual c r ;; Ok (@Halt F St (mkOut RESIDUAL_NAN x (iter + 1) fr) (Some resid))
  else Ok (Go st resid).
Definition cst : Type := list F * list F * list F * list F * list F.
Definition cg_hstep (iter : nat) (st : cst) : res (verdict cst) :=
  let '(x, r, p, q, z) := st in
  q <- mi_vec A p q ;; tmp <- v_dot z r ;; pq <- v_dot p q ;;
  x <- v_axpy (tmp / pq) p x ;; r <- v_axpy (- (tmp / pq)) q r ;; z <- pre r z ;; zr <- v_dot z r ;;
  p <- v_xpay (zr / tmp) z p ;; resid <- get_residual c r ;;
  judge iter resid r x (x, r, p, q, z).
Definition bicg_hstep (r0 : list F) (iter : nat) (st : bstate (F:=F)) : res (verdict bstate) :=
  rho <- v_dot (b_r st) r0 ;;
  if feqb rho 0 then fr <- get_residual c (b_r st) ;; Ok (@Halt F bstate (mkOut BREAKDOWN (b_x st) (iter + 1) fr) None) else
  p <- (match iter with
        | 0 => v_copy (b_r st) (b_p st)
        | _ => let beta := (rho / b_rho_old st) * (b_alpha st / b_omega st) in
               p <- v_axpy (- b_omega st) (b_v st) (b_p st) ;; v_xpay beta (b_r st) p
        end) ;;
  phat <- pre p (b_phat st) ;; v <- mi_vec A phat (b_v st) ;; vr0 <- v_dot v r0 ;;
  s <- v_axpyz (- (rho / vr0)) v (b_r st) (b_s st) ;; shat <- pre s (b_shat st) ;; t <- mi_vec A shat (b_t st) ;;
  ts <- v_dot t s ;; tt_ <- v_dot t t ;;
  if feqb (ts / tt_) 0 then fr <- get_residual c (b_r st) ;; Ok (@Halt F bstate (mkOut BREAKDOWN (b_x st) (iter + 1) fr) None) else
  x <- v_axpy (rho / vr0) phat (b_x st) ;; x <- v_axpy (ts / tt_) shat x ;; r <- v_axpyz (- (ts / tt_)) t s (b_r st) ;;
  resid <- get_residual c r ;;
  judge iter resid r x (mkB x r p phat s shat v t rho (rho / vr0) (ts / tt_)).
Definition sst : Type := list F * list F * list F * list F.
Definition jac_hstep (b d : list F) (bn : F) (iter : nat) (st : sst) : res (verdict sst) :=
  let '(x, r, t, s) := st in
  s <- pre x s ;; s <- v_copy x s ;; t <- mi_vec A s t ;; r <- v_axpyz (- f1) t b r ;; nrm <- v_nrm2 r ;;
  r <- v_mul r d r ;; x <- v_add x r x ;;
  judge iter (nrm * bn) r x (x, r, t, s).
Definition sor_hstep (lower : list F -> list F -> list F -> res (list F)) (b d : list F) (bn : F) (iter : nat) (st : sst) : res (verdict sst) :=
  let '(x, r, t, s) := st in
  s <- pre x s ;; t <- mi_vec A s t ;; r <- v_axpyz (- f1) t b r ;; nrm <- v_nrm2 r ;;
  t <- lower d t r ;; x <- v_axpy 1 t x ;;
  judge iter (nrm * bn) r x (x, r, t, s).

Definition cx (st : cst) : list F := let '(x, r, p, q, z) := st in x.
Definition cr (st : cst) : list F := let '(x, r, p, q, z) := st in r.
Definition sx (st : sst) : list F := let '(x, r, t, s) := st in x.
Definition sr (st : sst) : list F := let '(x, r, t, s) := st in r.

Ltac go := repeat (match goal with
  | |- context [get_residual (with_maxiter c ?m) ?r] => change (get_residual (with_maxiter c m) r) with (get_residual c r)
  | |- bind ?m _ = bind (bind ?m _) _ => destruct m
  | |- (if ?b then _ else _) = bind (if ?b then _ else _) _ => destruct b
  end; cbn [bind]; try reflexivity).

Lemma cg_loop_gen pr m n iter x r p q z : cg_loop_h pr (with_maxiter c m) A pre n iter x r p q z = loop c cg_hstep cx cr pr m n iter (x, r, p, q, z).
Proof.
  revert iter x r p q z. induction n as [|n IH]; intros; cbn [cg_loop_h loop]; [reflexivity|].
  cbn [cg_hstep s_tol s_miniter with_maxiter]. unfold judge. go. now rewrite IH.
Qed.
Lemma bicg_loop_gen r0 pr m n iter st : bicg_loop_h pr (with_maxiter c m) A pre r0 n iter st = loop c (bicg_hstep r0) (fun s => b_x s) (fun s => b_r s) pr m n iter st.
Proof.
  revert iter st. induction n as [|n IH]; intros; cbn [bicg_loop_h loop]; [reflexivity|].
  cbn [s_tol s_miniter with_maxiter]. unfold bicg_hstep, judge. go. now rewrite IH.
Qed.
Lemma jac_loop_gen b d bn pr m n iter x r t s : jacobi_loop_h pr (with_maxiter c m) A pre b d bn n iter x r t s = loop c (jac_hstep b d bn) sx sr pr m n iter (x, r, t, s).
Proof.
  revert iter x r t s. induction n as [|n IH]; intros; cbn [jacobi_loop_h loop]; [reflexivity|].
  cbn [jac_hstep s_tol s_miniter with_maxiter]. unfold judge. go. now rewrite IH.
Qed.
Lemma sor_loop_gen lower b d bn pr m n iter x r t s : sor_loop_h pr (with_maxiter c m) A lower pre b d bn n iter x r t s = loop c (sor_hstep lower b d bn) sx sr pr m n iter (x, r, t, s).
Proof.
  revert iter x r t s. induction n as [|n IH]; intros; cbn [sor_loop_h loop]; [reflexivity|].
  cbn [sor_hstep s_tol s_miniter with_maxiter]. unfold judge. go. now rewrite IH.
Qed.

(** the steps *)
Lemma judge_ok {St} iter resid r x (st : St) v : judge iter resid r x st = Ok v ->
  match v with
  | Halt _ _ None => False
  | Halt _ o (Some w) => w = resid /\ get_residual c r = Ok (o_resid o) /\ o_x o = x /\ o_iter o = (iter + 1)%nat /\ ((o_code o = SUCCESS /\ below c ((iter + 1)%nat, w) = true) \/
                         (o_code o = RESIDUAL_NAN /\ below c ((iter + 1)%nat, w) = false /\ fnan w = true))
  | Go st' w => w = resid /\ st' = st /\ below c ((iter + 1)%nat, w) = false /\ fnan w = false
  end.
Proof.
  unfold judge, below. cbn [fst snd]. destruct (fltb resid (s_tol c) && (s_miniter c <=? iter + 1)) eqn:E1.
  - destruct (get_residual c r) eqn:E; cbn [bind]; try discriminate. intros H. injection H as <-. cbn. auto 10.
  - destruct (fnan resid) eqn:E2.
    + destruct (get_residual c r) eqn:E; cbn [bind]; try discriminate. intros H. injection H as <-. cbn. auto 10.
    + intros H. injection H as <-. auto.
Qed.
Ltac stepin H := repeat (match type of H with
  | (if ?b then _ else _) = Ok _ => destruct b
  | bind ?m _ = Ok _ => let E := fresh "E" in destruct m eqn:E; cbn [bind] in H; [|discriminate H..]
  end).
Lemma cg_step_ok : step_ok c cg_hstep /\ step_resid c cg_hstep cr.
Proof.
  split; intros iter [[[[x r] p] q] z] v H; cbn [cg_hstep] in H; stepin H; apply judge_ok in H.
  - destruct v as [o [w|]|st w]; [| |]; [|now destruct H|]; intuition.
  - destruct v as [o [w|]|st w]; [|now destruct H|].
    + destruct H as (-> & H & _). congruence.
    + destruct H as (-> & -> & _). cbn [cr]. auto.
Qed.
Lemma bicg_step_ok r0 : step_ok c (bicg_hstep r0) /\ step_resid c (bicg_hstep r0) (fun s => b_r s).
Proof.
  split; intros iter st v H; unfold bicg_hstep in H; stepin H; try (injection H as <-; cbn; auto; fail); apply judge_ok in H.
  - destruct v as [o [w|]|st' w]; [|now destruct H|]; intuition.
  - destruct v as [o [w|]|st' w]; [|now destruct H|].
    + destruct H as (-> & H & _). congruence.
    + destruct H as (-> & -> & _). cbn [b_r]. auto.
Qed.
Lemma jac_step_ok b d bn : step_ok c (jac_hstep b d bn).
Proof. intros iter [[[x r] t] s] v H; cbn [jac_hstep] in H; stepin H; apply judge_ok in H. destruct v as [o [w|]|st' w]; [|now destruct H|]; intuition. Qed.
Lemma sor_step_ok lower b d bn : step_ok c (sor_hstep lower b d bn).
Proof. intros iter [[[x r] t] s] v H; cbn [sor_hstep] in H; stepin H; apply judge_ok in H. destruct v as [o [w|]|st' w]; [|now destruct H|]; intuition. Qed.

(** erasing the history gives SolverModel.v *)
Ltac er := unfold after; repeat (match goal with
  | |- bind ?m _ = bind (bind ?m _) _ => destruct m
  | |- (if ?b then _ else _) = bind (if ?b then _ else _) _ => destruct b
  end; cbn [bind]; try reflexivity).
Lemma cg_erase pr n iter x r p q z : cg_loop c A pre n iter x r p q z = oh <- cg_loop_h pr c A pre n iter x r p q z ;; Ok (fst oh).
Proof. revert iter x r p q z. induction n as [|n IH]; intros; cbn [cg_loop_h cg_loop]; [destruct (get_residual c r); reflexivity|]. er. rewrite IH. destruct (cg_loop_h _ _ _ _ _ _ _ _ _ _ _); reflexivity. Qed.
Lemma bicg_erase r0 pr n iter st : bicg_loop c A pre r0 n iter st = oh <- bicg_loop_h pr c A pre r0 n iter st ;; Ok (fst oh).
Proof. revert iter st. induction n as [|n IH]; intros; cbn [bicg_loop_h bicg_loop]; [destruct (get_residual c (b_r st)); reflexivity|]. er. rewrite IH. destruct (bicg_loop_h _ _ _ _ _ _ _ _); reflexivity. Qed.
Lemma jac_erase b d bn pr n iter x r t s : jacobi_loop c A pre b d bn n iter x r t s = oh <- jacobi_loop_h pr c A pre b d bn n iter x r t s ;; Ok (fst oh).
Proof. revert iter x r t s. induction n as [|n IH]; intros; cbn [jacobi_loop_h jacobi_loop]; [destruct (get_residual c r); reflexivity|]. er. rewrite IH. destruct (jacobi_loop_h _ _ _ _ _ _ _ _ _ _ _ _ _); reflexivity. Qed.
Lemma sor_erase lower b d bn pr n iter x r t s : sor_loop c A lower pre b d bn n iter x r t s = oh <- sor_loop_h pr c A lower pre b d bn n iter x r t s ;; Ok (fst oh).
Proof. revert iter x r t s. induction n as [|n IH]; intros; cbn [sor_loop_h sor_loop]; [destruct (get_residual c r); reflexivity|]. er. rewrite IH. destruct (sor_loop_h _ _ _ _ _ _ _ _ _ _ _ _ _ _); reflexivity. Qed.
End Instances.
