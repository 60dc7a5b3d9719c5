(** * SolverProof2: any arithmetic - the iteration limit only cuts; Jacobi and SOR (proof support for C34, C35). *)
From Coq Require Import Ring.
From Verif Require Import Base Scalar Spec SumFacts Loops DenseModel Observe CrsModel CrsObserve CrsProof CrsSimProof
  CrsBlasProof CrsBlas2Proof SolverModel SolverSpec SolverProof SolverSorProof.
Set Implicit Arguments.

Section AnyArith.
Context {F : Type} {SF : Scalar F}.

Lemma get_residual_any (c c' : cfg (F:=F)) r v r' : s_method c = s_method c' -> get_residual c r = Ok v ->
  exists v', get_residual c' r' = Ok v'.
Proof.
  unfold get_residual. intros <-. destruct (s_method c); [|discriminate]. intros _.
  unfold v_nrm2. rewrite (@v_dot_ok F SF (length r')) by auto. cbn [bind]. eauto.
Qed.
Lemma get_residual_wm (c : cfg (F:=F)) m m' r : get_residual (with_maxiter c m) r = get_residual (with_maxiter c m') r.
Proof. reflexivity. Qed.

(** a loop seen as repeated steps: a step ends the run or gives the next state *)
Section Generic.
Context {St : Type}.
Variables (c : cfg (F:=F)) (loop : cfg (F:=F) -> nat -> nat -> St -> res (outcome (F:=F)))
  (step : nat -> St -> res (outcome (F:=F) + St)) (fin : St -> res F) (xof : St -> list F).
Hypothesis H0 : forall m iter st, loop (with_maxiter c m) 0 iter st = bind (fin st) (fun v => Ok (mkOut MAXITER (xof st) m v)).
Hypothesis HS : forall m n iter st, loop (with_maxiter c m) (S n) iter st =
  bind (step iter st) (fun r => match r with inl o => Ok o | inr st' => loop (with_maxiter c m) n (S iter) st' end).
Hypothesis Hdone : forall iter st o, step iter st = Ok (inl o) -> o_iter o = S iter /\ o_code o <> MAXITER.
Hypothesis Hfin : forall iter st r, step iter st = Ok r -> exists v, fin st = Ok v.

Lemma cut_generic m n : forall iter st o, loop (with_maxiter c m) n iter st = Ok o -> o_code o <> MAXITER ->
    (S iter <= o_iter o <= iter + n)%nat /\
    forall m' n', ((o_iter o <= iter + n')%nat -> loop (with_maxiter c m') n' iter st = Ok o) /\
       ((iter + n' < o_iter o)%nat -> exists o', loop (with_maxiter c m') n' iter st = Ok o' /\ o_code o' = MAXITER).
Proof.
  induction n as [|n IH]; intros iter st o H Hc.
  - rewrite H0 in H. destruct (fin st); cbn [bind] in H; inversion H; subst. now destruct Hc.
  - rewrite HS in H. destruct (step iter st) as [[o1|st']| | | |] eqn:E; cbn [bind] in H; try discriminate H.
    + inversion H; subst o1. destruct (@Hdone _ _ _ E) as [G1 G2]. split; [lia|]. intros m' [|n'].
      * split; [lia|]. intros _. destruct (@Hfin _ _ _ E) as (v & Ev). rewrite H0, Ev. cbn [bind]. eexists; split; reflexivity.
      * split; [|lia]. intros _. rewrite HS, E. reflexivity.
    + destruct (@IH _ _ _ H Hc) as (G1 & G2). split; [lia|]. intros m' [|n'].
      * split; [lia|]. intros _. destruct (@Hfin _ _ _ E) as (v & Ev). rewrite H0, Ev. cbn [bind]. eexists; split; reflexivity.
      * rewrite HS, E. cbn [bind]. destruct (G2 m' n') as [G3 G4]. split; intros; [apply G3|apply G4]; lia.
Qed.
End Generic.

Local Open Scope F_scope.
Definition finish (c : cfg (F:=F)) (code : Z) (iter : nat) {St} (x r : list F) : res (outcome (F:=F) + St) :=
  fr <- get_residual c r ;; Ok (inl (mkOut code x (iter + 1) fr)).

Definition cg_step (c : cfg (F:=F)) A pre (iter : nat) (st : list F * list F * list F * list F * list F) :=
  let '(x, r, p, q, z) := st in
      q <- mi_vec A p q ;;
      tmp <- v_dot z r ;;
      pq <- v_dot p q ;;
      let alpha := tmp / pq in
      x <- v_axpy alpha p x ;;
      r <- v_axpy (- alpha) q r ;;
      z <- pre r z ;;
      zr <- v_dot z r ;;
      let beta := zr / tmp in
      p <- v_xpay beta z p ;;
      resid <- get_residual c r ;;
      if fltb resid (s_tol c) && (s_miniter c <=? iter + 1) then finish c SUCCESS iter x r
      else if fnan resid then finish c RESIDUAL_NAN iter x r
      else Ok (inr (x, r, p, q, z)).

Definition bicg_step (c : cfg (F:=F)) A (pre : list F -> list F -> res (list F)) r0 (iter : nat) (st : bstate (F:=F)) : res (outcome (F:=F) + bstate (F:=F)) :=
      rho <- v_dot (b_r st) r0 ;;
      if feqb rho 0 then finish c BREAKDOWN iter (b_x st) (b_r st)
      else
      p <- (match iter with
            | 0%nat => v_copy (b_r st) (b_p st)
            | _ => let beta := (rho / b_rho_old st) * (b_alpha st / b_omega st) in
                   p <- v_axpy (- b_omega st) (b_v st) (b_p st) ;; v_xpay beta (b_r st) p
            end) ;;
      phat <- pre p (b_phat st) ;;
      v <- mi_vec A phat (b_v st) ;;
      vr0 <- v_dot v r0 ;;
      let alpha := rho / vr0 in
      s <- v_axpyz (- alpha) v (b_r st) (b_s st) ;;
      shat <- pre s (b_shat st) ;;
      t <- mi_vec A shat (b_t st) ;;
      ts <- v_dot t s ;;
      tt_ <- v_dot t t ;;
      let omega := ts / tt_ in
      if feqb omega 0 then finish c BREAKDOWN iter (b_x st) (b_r st)
      else
      x <- v_axpy alpha phat (b_x st) ;;
      x <- v_axpy omega shat x ;;
      r <- v_axpyz (- omega) t s (b_r st) ;;
      resid <- get_residual c r ;;
      if fltb resid (s_tol c) && (s_miniter c <=? iter + 1) then finish c SUCCESS iter x r
      else if fnan resid then finish c RESIDUAL_NAN iter x r
      else Ok (inr (mkB x r p phat s shat v t rho alpha omega)).

Definition jacobi_step (c : cfg (F:=F)) A (pre : list F -> list F -> res (list F)) b d bnrm2 (iter : nat)
   (st : list F * list F * list F * list F) :=
  let '(x, r, t, s) := st in
      s <- pre x s ;;
      s <- v_copy x s ;;
      t <- mi_vec A s t ;;
      r <- v_axpyz (- f1) t b r ;;
      nrm <- v_nrm2 r ;;
      r <- v_mul r d r ;;
      x <- v_add x r x ;;
      let nrm := nrm * bnrm2 in
      if fltb nrm (s_tol c) && (s_miniter c <=? iter + 1) then finish c SUCCESS iter x r
      else if fnan nrm then finish c RESIDUAL_NAN iter x r
      else Ok (inr (x, r, t, s)).

Definition sor_step (c : cfg (F:=F)) A (lower : list F -> list F -> list F -> res (list F)) (pre : list F -> list F -> res (list F)) b d bnrm2 (iter : nat)
   (st : list F * list F * list F * list F) :=
  let '(x, r, t, s) := st in
      s <- pre x s ;;
      t <- mi_vec A s t ;;
      r <- v_axpyz (- f1) t b r ;;
      nrm <- v_nrm2 r ;;
      t <- lower d t r ;;
      x <- v_axpy 1 t x ;;
      let nrm := nrm * bnrm2 in
      if fltb nrm (s_tol c) && (s_miniter c <=? iter + 1) then finish c SUCCESS iter x r
      else if fnan nrm then finish c RESIDUAL_NAN iter x r
      else Ok (inr (x, r, t, s)).

Ltac walk := unfold finish; repeat (match goal with
  | |- bind (get_residual (with_maxiter ?c ?m) ?r) _ = _ => change (get_residual (with_maxiter c m) r) with (get_residual c r)
  | |- (if ?b then _ else _) = bind (if ?b then _ else _) _ => destruct b
  | |- ?l = bind (finish _ _ _ _ _) _ => unfold finish
  | |- bind ?m _ = bind (bind ?m _) _ => destruct m
  end; cbn [bind]; try reflexivity).

(** every step that returns has computed some residual norm, so get_residual does not throw *)
Ltac walkin H := repeat (match type of H with
  | (if ?b then _ else _) = Ok _ => destruct b
  | finish _ _ _ _ _ = Ok _ => unfold finish in H
  | bind ?m _ = Ok _ => let E := fresh "E" in destruct m eqn:E; cbn [bind] in H; [|discriminate H..]
  | (let _ := _ in _) = Ok _ => cbv zeta in H
  | Ok (inr _) = Ok (inl _) => discriminate H
  | Ok (inl _) = Ok (inl _) => injection H as <-
  end).
Lemma code_neq : SUCCESS <> MAXITER /\ RESIDUAL_NAN <> MAXITER /\ BREAKDOWN <> MAXITER.
Proof. repeat split; discriminate. Qed.
Ltac stepdone H := walkin H; cbn [o_iter o_code]; (split; [lia|]); solve [apply code_neq].
Ltac stepfin H := walkin H; try solve [eauto];
  match goal with |- exists v, get_residual ?c ?r = Ok v => 
    match goal with E : get_residual c _ = Ok _ |- _ => apply (@get_residual_any c c _ _ r eq_refl E) end end.

Lemma cg_limit A pre x b li lr c : s_lib c = 0%nat -> limit_only_cuts (fun c => cg_solve c A pre x b li lr) c.
Proof.
  intros Hl m o. unfold cg_solve. cbn [s_lib with_maxiter]. rewrite Hl. unfold monolish_cg.
  destruct (require_ _); cbn [bind]; try discriminate.
  destruct (pre A) as [f| | | |]; cbn [bind]; try discriminate.
  destruct (mi_vec A x _) as [q| | | |]; cbn [bind]; try discriminate.
  destruct (v_sub _ _ _) as [r| | | |]; cbn [bind]; try discriminate.
  destruct (f r _) as [z| | | |]; cbn [bind]; try discriminate.
  destruct (v_copy _ _) as [p| | | |]; cbn [bind]; try discriminate. cbn [s_maxiter].
  intros H Hc.
  destruct (@cut_generic _ c (fun c n iter (st : list F * list F * list F * list F * list F) => let '(x, r, p, q, z) := st in cg_loop c A f n iter x r p q z)
    (cg_step c A f) (fun st => let '(x, r, p, q, z) := st in get_residual c r) (fun st => let '(x, r, p, q, z) := st in x)) with (m := m) (n := m) (iter := 0%nat) (st := (x, r, p, q, z)) (o := o) as (G1 & G2); auto.
  - intros m' iter [[[[x1 r1] p1] q1] z1]. reflexivity.
  - intros m' n' iter [[[[x1 r1] p1] q1] z1]. cbn [cg_loop cg_step s_tol s_miniter with_maxiter]. walk.
  - intros iter [[[[x1 r1] p1] q1] z1] o1 Hs. cbn [cg_step] in Hs. stepdone Hs.
  - intros iter [[[[x1 r1] p1] q1] z1] o1 Hs. cbn [cg_step] in Hs. stepfin Hs.
  - cbn [s_maxiter with_maxiter] in *. split; [lia|]. intros m'. destruct (G2 m' m') as [G3 G4]. split; auto.
Qed.

Lemma bicg_limit A pre x b li lr c : s_lib c = 0%nat -> limit_only_cuts (fun c => bicgstab_solve c A pre x b li lr) c.
Proof.
  intros Hl m o. unfold bicgstab_solve. cbn [s_lib with_maxiter]. rewrite Hl. unfold monolish_bicgstab.
  destruct (require_ _); cbn [bind]; try discriminate.
  destruct (pre A) as [f| | | |]; cbn [bind]; try discriminate.
  destruct (mi_vec A x _) as [q| | | |]; cbn [bind]; try discriminate.
  destruct (v_sub _ _ _) as [r| | | |]; cbn [bind]; try discriminate.
  destruct (v_copy _ _) as [r0| | | |]; cbn [bind]; try discriminate. cbn [s_maxiter].
  intros H Hc.
  destruct (@cut_generic _ c (fun c n iter st => bicg_loop c A f r0 n iter st)
    (bicg_step c A f r0) (fun st => get_residual c (b_r st)) (@b_x F)) with (5 := H) as (G1 & G2); auto.
  - intros m' n' iter st. unfold bicg_step. cbn [bicg_loop s_tol s_miniter with_maxiter]. walk.
  - intros iter st o1 Hs. unfold bicg_step in Hs. stepdone Hs.
  - intros iter st o1 Hs. unfold bicg_step in Hs. stepfin Hs.
  - cbn [s_maxiter with_maxiter] in *. split; [lia|]. intros m'. destruct (G2 m' m') as [G3 G4]. split; auto.
Qed.

Lemma jacobi_limit A pre x b li lr c : s_lib c = 0%nat -> s_method c = 0%nat -> limit_only_cuts (fun c => jacobi_solve c A pre x b li lr) c.
Proof.
  intros Hl Hme m o. unfold jacobi_solve. cbn [s_lib with_maxiter]. rewrite Hl. unfold monolish_jacobi.
  destruct (require_ _); cbn [bind]; try discriminate.
  destruct (v_nrm2 b) as [bn| | | |]; cbn [bind]; try discriminate.
  destruct (mi_diag A _) as [d| | | |]; cbn [bind]; try discriminate.
  destruct (v_recip _ _) as [d'| | | |]; cbn [bind]; try discriminate.
  destruct (pre A) as [f| | | |]; cbn [bind]; try discriminate. cbn [s_maxiter].
  intros H Hc.
  set (zero := repeat 0 _) in *.
  destruct (@cut_generic _ c (fun c n iter (st : list F * list F * list F * list F) => let '(x, r, t, s) := st in jacobi_loop c A f b d' (1 / bn) n iter x r t s)
    (jacobi_step c A f b d' (1 / bn)) (fun st => let '(x, r, t, s) := st in get_residual c r) (fun st => let '(x, r, t, s) := st in x)) with (m := m) (n := m) (iter := 0%nat) (st := (x, zero, zero, zero)) (o := o) as (G1 & G2); auto.
  - intros m' iter [[[x1 r1] t1] s1]. reflexivity.
  - intros m' n' iter [[[x1 r1] t1] s1]. cbn [jacobi_loop jacobi_step s_tol s_miniter with_maxiter]. walk.
  - intros iter [[[x1 r1] t1] s1] o1 Hs. cbn [jacobi_step] in Hs. stepdone Hs.
  - intros iter [[[x1 r1] t1] s1] o1 Hs. unfold get_residual. rewrite Hme. unfold v_nrm2.
    rewrite (@v_dot_ok F SF (length r1)) by auto. cbn [bind]. eauto.
  - cbn [s_maxiter with_maxiter] in *. split; [lia|]. intros m'. destruct (G2 m' m') as [G3 G4]. split; auto.
Qed.

Lemma sor_limit A lower pre x b li lr c : s_lib c = 0%nat -> s_method c = 0%nat -> limit_only_cuts (fun c => sor_solve c A lower pre x b li lr) c.
Proof.
  intros Hl Hme m o. unfold sor_solve. cbn [s_lib with_maxiter]. rewrite Hl. unfold monolish_sor. cbn [s_omega with_maxiter].
  destruct (require_ _); cbn [bind]; try discriminate.
  destruct (mi_diag A _) as [d| | | |]; cbn [bind]; try discriminate.
  destruct (v_recip _ _) as [d'| | | |]; cbn [bind]; try discriminate.
  destruct (v_nrm2 b) as [bn| | | |]; cbn [bind]; try discriminate.
  destruct (pre A) as [f| | | |]; cbn [bind]; try discriminate. cbn [s_maxiter].
  intros H Hc.
  set (zero := repeat 0 _) in *.
  destruct (@cut_generic _ c (fun c n iter (st : list F * list F * list F * list F) => let '(x, r, t, s) := st in sor_loop c A lower f b d' (1 / bn) n iter x r t s)
    (sor_step c A lower f b d' (1 / bn)) (fun st => let '(x, r, t, s) := st in get_residual c r) (fun st => let '(x, r, t, s) := st in x)) with (m := m) (n := m) (iter := 0%nat) (st := (x, zero, zero, zero)) (o := o) as (G1 & G2); auto.
  - intros m' iter [[[x1 r1] t1] s1]. reflexivity.
  - intros m' n' iter [[[x1 r1] t1] s1]. cbn [sor_loop sor_step s_tol s_miniter with_maxiter]. walk.
  - intros iter [[[x1 r1] t1] s1] o1 Hs. cbn [sor_step] in Hs. stepdone Hs.
  - intros iter [[[x1 r1] t1] s1] o1 Hs. unfold get_residual. rewrite Hme. unfold v_nrm2.
    rewrite (@v_dot_ok F SF (length r1)) by auto. cbn [bind]. eauto.
  - cbn [s_maxiter with_maxiter] in *. split; [lia|]. intros m'. destruct (G2 m' m') as [G3 G4]. split; auto.
Qed.

(** the code, final_iter and final_resid agree in every arithmetic *)
Lemma cg_loop_honest c A pre n : forall iter x r p q z o, (iter + n = s_maxiter c)%nat ->
  cg_loop c A pre n iter x r p q z = Ok o -> code_honest c o /\ o_code o <> BREAKDOWN.
Proof.
  induction n as [|n IH]; intros iter x r p q z o Hn H; cbn [cg_loop] in H.
  - destruct (get_residual c r); cbn [bind] in H; inversion H; subst. split; [|discriminate].
    right. right. right. split; reflexivity.
  - destruct (mi_vec A p q); cbn [bind] in H; try discriminate H.
    destruct (v_dot z r); cbn [bind] in H; try discriminate H.
    destruct (v_dot p _); cbn [bind] in H; try discriminate H.
    destruct (v_axpy _ p x); cbn [bind] in H; try discriminate H.
    destruct (v_axpy _ _ r) as [r'| | | |]; cbn [bind] in H; try discriminate H.
    destruct (pre _ _); cbn [bind] in H; try discriminate H.
    destruct (v_dot _ r'); cbn [bind] in H; try discriminate H.
    destruct (v_xpay _ _ _); cbn [bind] in H; try discriminate H.
    destruct (get_residual c r') as [v| | | |] eqn:E; cbn [bind] in H; try discriminate H.
    destruct (fltb v (s_tol c) && (s_miniter c <=? iter + 1)) eqn:E1; [|destruct (fnan v) eqn:E2].
    + inversion H; subst. split; [|discriminate]. left. cbn [o_code o_resid o_iter].
      apply andb_prop in E1. destruct E1 as [E1 E3]. apply Nat.leb_le in E3. repeat split; auto; lia.
    + inversion H; subst. split; [|discriminate]. right. left. cbn [o_code o_resid o_iter]. repeat split; auto; lia.
    + eapply IH; [|exact H]. lia.
Qed.

Lemma bicg_loop_honest c A pre r0 n : forall iter st o, (iter + n = s_maxiter c)%nat ->
  bicg_loop c A pre r0 n iter st = Ok o -> code_honest c o.
Proof.
  induction n as [|n IH]; intros iter st o Hn H; cbn [bicg_loop] in H.
  - destruct (get_residual c _); cbn [bind] in H; inversion H; subst. right. right. right. split; reflexivity.
  - destruct (v_dot (b_r st) r0); cbn [bind] in H; try discriminate H.
    destruct (feqb _ _).
    { destruct (get_residual c _); cbn [bind] in H; inversion H; subst. right. right. left. cbn [o_code o_iter]. split; auto; lia. }
    match type of H with bind ?m _ = _ => destruct m; cbn [bind] in H; try discriminate H end.
    destruct (pre _ _); cbn [bind] in H; try discriminate H.
    match type of H with bind ?m _ = _ => destruct m; cbn [bind] in H; try discriminate H end.
    match type of H with bind ?m _ = _ => destruct m; cbn [bind] in H; try discriminate H end.
    match type of H with bind ?m _ = _ => destruct m; cbn [bind] in H; try discriminate H end.
    match type of H with bind ?m _ = _ => destruct m; cbn [bind] in H; try discriminate H end.
    match type of H with bind ?m _ = _ => destruct m; cbn [bind] in H; try discriminate H end.
    match type of H with bind ?m _ = _ => destruct m; cbn [bind] in H; try discriminate H end.
    match type of H with bind ?m _ = _ => destruct m; cbn [bind] in H; try discriminate H end.
    destruct (feqb _ _).
    { destruct (get_residual c _); cbn [bind] in H; inversion H; subst. right. right. left. cbn [o_code o_iter]. split; auto; lia. }
    match type of H with bind ?m _ = _ => destruct m; cbn [bind] in H; try discriminate H end.
    match type of H with bind ?m _ = _ => destruct m; cbn [bind] in H; try discriminate H end.
    match type of H with bind ?m _ = _ => destruct m as [r'| | | |]; cbn [bind] in H; try discriminate H end.
    destruct (get_residual c r') as [v| | | |] eqn:E; cbn [bind] in H; try discriminate H.
    destruct (fltb v (s_tol c) && (s_miniter c <=? iter + 1)) eqn:E1; [|destruct (fnan v) eqn:E2].
    + inversion H; subst. left. cbn [o_code o_resid o_iter].
      apply andb_prop in E1. destruct E1 as [E1 E3]. apply Nat.leb_le in E3. repeat split; auto; lia.
    + inversion H; subst. right. left. cbn [o_code o_resid o_iter]. repeat split; auto; lia.
    + eapply IH; [|exact H]. lia.
Qed.

Lemma cg_solve_honest c A pre x b li lr o : s_lib c = 0%nat -> cg_solve c A pre x b li lr = Ok o ->
  code_honest c o /\ o_code o <> BREAKDOWN.
Proof.
  intros Hl H. unfold cg_solve in H. rewrite Hl in H. unfold monolish_cg in H.
  repeat match type of H with bind ?m _ = _ => destruct m; cbn [bind] in H; try discriminate H end.
  eapply cg_loop_honest; [|exact H]. reflexivity.
Qed.
Lemma bicg_solve_honest c A pre x b li lr o : s_lib c = 0%nat -> bicgstab_solve c A pre x b li lr = Ok o -> code_honest c o.
Proof.
  intros Hl H. unfold bicgstab_solve in H. rewrite Hl in H. unfold monolish_bicgstab in H.
  repeat match type of H with bind ?m _ = _ => destruct m; cbn [bind] in H; try discriminate H end.
  eapply bicg_loop_honest; [|exact H]. reflexivity.
Qed.
End AnyArith.

(** ** Jacobi and SOR in exact arithmetic *)
Section Split.
Context {F : Type} {SF : Scalar F}.
Local Open Scope F_scope.
Hypothesis Hex : exact SF.
Let Hrt : ring_theory f0 f1 fadd fmul fsub fopp (@eq F) := Hex.
Add Ring FringSp : Hrt.

Variables (c : cfg (F:=F)) (A : matif (F:=F)) (n : nat) (M : nat -> nat -> F) (b : list F).
Hypothesis HA : represents A n M.
Hypothesis HD : has_diag A n M.
Hypothesis Hm : s_method c = 0%nat.
Hypothesis Hb : length b = n.

Lemma resid_axpyz x t r : length x = n -> length t = n -> length r = n -> (forall i, (i < n)%nat -> fn t i = mv n M (fn x) i) ->
  exists r', v_axpyz (- (1)) t b r = Ok r' /\ length r' = n /\ forall i, (i < n)%nat -> fn r' i = residual n M x b i.
Proof.
  intros Hx Ht Hr HT. rewrite (@v_axpyz_ok F SF n) by auto. eexists; split; [reflexivity|].
  split; [now rewrite zipw_length|]. intros i Hi. rewrite zipw_fn by lia. rewrite HT by auto. unfold residual. ring.
Qed.

(** what SUCCESS tells: the iterate BEFORE the last update was good enough *)
Definition split_success (corr : list F -> list F -> Prop) (o : outcome) (fr : list F -> list F -> F) : Prop :=
  exists xp t, length xp = n /\ length t = n /\ corr xp t /\
    fltb (norm2 n (residual n M xp b) * (1 / norm2 n (fn b))) (s_tol c) = true /\
    (forall i, (i < n)%nat -> fn (o_x o) i = fn xp i + fn t i) /\ o_resid o = fr xp t.

Definition jac_corr (xp t : list F) : Prop := forall i, (i < n)%nat -> fn t i = residual n M xp b i * (1 / M i i).

Lemma jacobi_loop_ok pre d k : (forall r z, length r = n -> length z = n -> exists z', pre r z = Ok z' /\ length z' = n) ->
  length d = n -> (forall i, (i < n)%nat -> fn d i = 1 / M i i) ->
  forall iter x r t s, (iter + k = s_maxiter c)%nat -> length x = n -> length r = n -> length t = n -> length s = n ->
  exists o, jacobi_loop c A pre b d (1 / norm2 n (fn b)) k iter x r t s = Ok o /\ length (o_x o) = n /\
    (o_iter o <= s_maxiter c)%nat /\
    (o_code o = SUCCESS -> (s_miniter c <= o_iter o)%nat /\ (1 <= o_iter o)%nat /\
       split_success jac_corr o (fun xp t => norm2 n (fn t))).
Proof.
  intros Hpre Hd Hdi. destruct HA as (R1 & R2 & R3).
  induction k as [|k IH]; intros iter x r t s Hk Hx Hr Ht Hs; cbn [jacobi_loop].
  - unfold get_residual. rewrite Hm, (@v_nrm2_exact F SF Hex n) by auto. cbn [bind].
    eexists; split; [reflexivity|]. cbn [o_x o_iter o_code]. repeat split; auto; discriminate.
  - destruct (Hpre x s Hx Hs) as (s' & -> & Hs'). cbn [bind].
    rewrite (@v_copy_ok F n) by auto. cbn [bind].
    destruct (R3 x t Hx Ht) as (t' & -> & Ht' & HT). cbn [bind].
    destruct (@resid_axpyz x t' r Hx Ht' Hr HT) as (r' & -> & Hr' & HR). cbn [bind].
    rewrite (@v_nrm2_exact F SF Hex n) by auto. cbn [bind].
    rewrite (@v_mul_ok F SF n) by auto. cbn [bind].
    rewrite (@v_add_ok F SF n) by (auto; now rewrite zipw_length). cbn [bind].
    set (u := zipw fmul r' d).
    assert (Hu : length u = n) by (unfold u; now rewrite zipw_length).
    assert (HU : jac_corr x u).
    { intros i Hi. unfold u. rewrite zipw_fn by lia. rewrite HR, Hdi by auto. reflexivity. }
    unfold get_residual. rewrite Hm, (@v_nrm2_exact F SF Hex n u) by auto. cbn [bind].
    destruct (fltb _ _ && _) eqn:E1; [|destruct (fnan _) eqn:E2].
    + eexists; split; [reflexivity|]. cbn [o_x o_iter o_code o_resid]. split; [now rewrite zipw_length|].
      apply andb_prop in E1. destruct E1 as [E1 E3]. apply Nat.leb_le in E3. split; [lia|].
      intros _. split; [lia|]. split; [lia|]. exists x, u. split; auto. split; auto. split; auto. split.
      * rewrite <- E1. f_equal. f_equal. apply norm2_ext. intros i Hi. symmetry. auto.
      * split; auto. intros i Hi. cbn [o_x]. rewrite zipw_fn by lia. auto.
    + eexists; split; [reflexivity|]. cbn [o_x o_iter o_code o_resid]. split; [now rewrite zipw_length|].
      split; [lia|]. discriminate.
    + apply IH; auto; [lia|now rewrite zipw_length].
Qed.

Lemma sor_loop_ok (lower : list F -> list F -> list F -> res (list F)) pre d k :
  (forall r z, length r = n -> length z = n -> pre r z = Ok r) ->
  length d = n -> 
  (forall t r, length t = n -> length r = n -> exists t', lower d t r = Ok t' /\ length t' = n /\ solves_lower n M d r t') ->
  forall iter x r t s, (iter + k = s_maxiter c)%nat -> length x = n -> length r = n -> length t = n -> length s = n ->
  exists o, sor_loop c A lower pre b d (1 / norm2 n (fn b)) k iter x r t s = Ok o /\ length (o_x o) = n /\
    (o_iter o <= s_maxiter c)%nat /\
    (o_code o = SUCCESS -> (s_miniter c <= o_iter o)%nat /\ (1 <= o_iter o)%nat /\
       split_success (fun xp t => exists r, length r = n /\ (forall i, (i < n)%nat -> fn r i = residual n M xp b i) /\ solves_lower n M d r t)
         o (fun xp t => norm2 n (residual n M xp b))).
Proof.
  intros Hpre Hd Hlow. destruct HA as (R1 & R2 & R3).
  induction k as [|k IH]; intros iter x r t s Hk Hx Hr Ht Hs; cbn [sor_loop].
  - unfold get_residual. rewrite Hm, (@v_nrm2_exact F SF Hex n) by auto. cbn [bind].
    eexists; split; [reflexivity|]. cbn [o_x o_iter o_code]. repeat split; auto; discriminate.
  - rewrite Hpre by auto. cbn [bind].
    destruct (R3 x t Hx Ht) as (t' & -> & Ht' & HT). cbn [bind].
    destruct (@resid_axpyz x t' r Hx Ht' Hr HT) as (r' & -> & Hr' & HR). cbn [bind].
    rewrite (@v_nrm2_exact F SF Hex n) by auto. cbn [bind].
    destruct (Hlow t' r' Ht' Hr') as (u & -> & Hu & HU). cbn [bind].
    rewrite (@v_axpy_ok F SF n) by auto. cbn [bind].
    unfold get_residual. rewrite Hm, (@v_nrm2_exact F SF Hex n r') by auto. cbn [bind].
    assert (EN : norm2 n (fn r') = norm2 n (residual n M x b)) by (now apply norm2_ext).
    destruct (fltb _ _ && _) eqn:E1; [|destruct (fnan _) eqn:E2].
    + eexists; split; [reflexivity|]. cbn [o_x o_iter o_code o_resid]. split; [now rewrite zipw_length|].
      apply andb_prop in E1. destruct E1 as [E1 E3]. apply Nat.leb_le in E3. split; [lia|].
      intros _. split; [lia|]. split; [lia|]. exists x, u. split; auto. split; auto. split; [exists r'; auto|]. split.
      * rewrite <- EN. exact E1.
      * split; [|exact EN]. intros i Hi. cbn [o_x]. rewrite zipw_fn by lia. ring.
    + eexists; split; [reflexivity|]. cbn [o_x o_iter o_code o_resid]. split; [now rewrite zipw_length|].
      split; [lia|]. discriminate.
    + apply IH; auto; [lia|now rewrite zipw_length].
Qed.

Lemma jacobi_solve_ok pre x li lr : s_lib c = 0%nat -> pre_ok A n pre -> length x = n ->
  exists o, jacobi_solve c A pre x b li lr = Ok o /\ length (o_x o) = n /\ (o_iter o <= s_maxiter c)%nat /\
    (o_code o = SUCCESS -> (s_miniter c <= o_iter o)%nat /\ (1 <= o_iter o)%nat /\
       split_success jac_corr o (fun xp t => norm2 n (fn t))).
Proof.
  intros Hl (f & Ef & Hf) Hx. unfold jacobi_solve. rewrite Hl. unfold monolish_jacobi.
  pose proof HA as (R1 & R2 & R3). rewrite R1, R2, Nat.eqb_refl. cbn [require_ bind].
  rewrite (@v_nrm2_exact F SF Hex n) by auto. cbn [bind].
  assert (Hz : length (repeat f0 n) = n) by now rewrite repeat_length.
  destruct (HD _ Hz) as (d & -> & Hd & Hdi). cbn [bind].
  rewrite (@v_recip_ok F SF n) by auto. cbn [bind]. rewrite Ef. cbn [bind].
  apply jacobi_loop_ok; auto.
  - now rewrite map_length.
  - intros i Hi. unfold fn. rewrite nth_indep with (d' := 1 / 0) by (rewrite map_length; lia).
    rewrite (map_nth (fun v => 1 / v)). f_equal. apply Hdi. auto.
Qed.

Lemma sor_solve_ok lower x li lr : s_lib c = 0%nat -> length x = n ->
  (forall d t r, length d = n -> length t = n -> length r = n -> exists t', lower d t r = Ok t' /\ length t' = n /\ solves_lower n M d r t') ->
  exists o d, sor_solve c A lower pc_none x b li lr = Ok o /\ length (o_x o) = n /\ (o_iter o <= s_maxiter c)%nat /\
    length d = n /\ (forall i, (i < n)%nat -> fn d i = 1 / ((1 / s_omega c) * M i i)) /\
    (o_code o = SUCCESS -> (s_miniter c <= o_iter o)%nat /\ (1 <= o_iter o)%nat /\
       split_success (fun xp t => exists r, length r = n /\ (forall i, (i < n)%nat -> fn r i = residual n M xp b i) /\ solves_lower n M d r t)
         o (fun xp t => norm2 n (residual n M xp b))).
Proof.
  intros Hl Hx Hlow. unfold sor_solve. rewrite Hl. unfold monolish_sor.
  pose proof HA as (R1 & R2 & R3). rewrite R1, R2, Nat.eqb_refl. cbn [require_ bind].
  assert (Hz : length (repeat f0 n) = n) by now rewrite repeat_length.
  destruct (HD _ Hz) as (d & -> & Hd & Hdi). cbn [bind].
  rewrite (@v_recip_ok F SF n) by (unfold v_scal; rewrite ?map_length; auto). cbn [bind].
  rewrite (@v_nrm2_exact F SF Hex n) by auto. cbn [bind].
  unfold pc_none. cbn [bind]. set (d' := map (fun v => 1 / v) _).
  assert (Hd' : length d' = n) by (unfold d', v_scal; now rewrite !map_length).
  destruct (@sor_loop_ok lower (fun r z => v_copy r z) d' (s_maxiter c)) with (iter := 0%nat) (x := x)
    (r := repeat f0 n) (t := repeat f0 n) (s := repeat f0 n) as (o & -> & H1 & H2 & H3); auto.
  - intros r z H1 H2. apply (@v_copy_ok F n); auto.
  - exists o, d'. split; auto. split; auto. split; auto. split; auto. split; auto.
    intros i Hi. unfold fn, d', v_scal. rewrite map_map.
    rewrite nth_indep with (d' := 1 / (1 / s_omega c * 0)) by (rewrite map_length; lia).
    rewrite (map_nth (fun v => 1 / (1 / s_omega c * v))). f_equal. f_equal. apply Hdi. auto.
Qed.
End Split.

(** ** the two matrix formats *)
Section Formats.
Context {F : Type} {SF : Scalar F}.
Hypothesis Hex : exact SF.

Lemma crs_represents (A : crs F) n : crs_readable A -> m_row A = n -> m_col A = n ->
  represents (crs_if A) n (summed (crs_entries A)).
Proof.
  intros (A' & Hs & W) Hr Hc. split; auto. split; auto. intros x y Hx Hy. cbn [crs_if mi_vec].
  unfold crs_matvec. rewrite (@crs_sim_matvec F SF A A' f1 x f0 y false) by auto.
  pose proof Hs as (G1 & G2 & _).
  rewrite crs_matvec_ok by (auto; congruence). eexists; split; [reflexivity|].
  rewrite map_length, seq_length. split; [congruence|]. intros i Hi. unfold fn. rewrite nth_map_seq by lia.
  cbn [Nat.add]. rewrite (crs_sim_entries Hs).
  rewrite (row_dot_mv Hex x W) by lia. do 2 f_equal. congruence.
Qed.

Lemma nodup_summed_elem (A : crs F) i j : nodup_pos (crs_entries A) -> summed (crs_entries A) i j = crs_elem A i j.
Proof. intros H. unfold crs_elem. symmetry. symmetry. now apply (summed_last_wins Hex). Qed.

Lemma crs_has_diag (A : crs F) n : crs_ok A -> m_first A = 0 -> m_row A = n -> m_col A = n -> nodup_pos (crs_entries A) ->
  has_diag (crs_if A) n (summed (crs_entries A)).
Proof.
  intros W Hf Hr Hc Hn v Hv. cbn [crs_if mi_diag].
  assert (Hmin : Nat.min (m_row A) (m_col A) = n) by lia.
  rewrite crs_diag_ok by (auto; lia). rewrite Hmin. eexists; split; [reflexivity|].
  rewrite map_length, seq_length. split; auto. intros i Hi. unfold fn. rewrite nth_map_seq by lia. cbn [Nat.add].
  symmetry. now apply nodup_summed_elem.
Qed.

Let Hrt : ring_theory f0 f1 fadd fmul fsub fopp (@eq F) := Hex.
Add Ring FringFm : Hrt.

Lemma dense_represents (A : dense F) n : dense_ok A -> d_row A = n -> d_col A = n ->
  represents (dense_if A) n (dense_fn A).
Proof.
  intros W Hr Hc. split; auto. split; auto. intros x y Hx Hy. cbn [dense_if mi_vec]. unfold dense_matvec.
  rewrite Hr, Hc, Hx, Hy, Nat.eqb_refl. cbn [andb assert_ bind].
  destruct (@for0_inv (list F) (fun k t => length t = n /\ forall i, i < k -> fn t i = mv n (dense_fn A) (fn x) i) n
   (fun i y => s <- for_ 0 n (fun j s => a <- rd (d_val A) (d_first A + (i * n + j)) ;; e <- rd x j ;; Ok (fadd s (fmul a e))) f0 ;;
    wr y i (fmul f1 s)) y) as (t & -> & HL & HN).
  - split; auto. intros i Hi. lia.
  - intros i t Hi [HL HN].
    destruct (@for0_inv F (fun k s => s = sum_n k (fun j => fmul (dense_fn A i j) (fn x j))) n
      (fun j s => a <- rd (d_val A) (d_first A + (i * n + j)) ;; e <- rd x j ;; Ok (fadd s (fmul a e))) f0) as (s & -> & ->); auto.
    + intros j s Hj ->. destruct W as (W1 & W2 & W3).
      rewrite (@rd_lt F (d_val A) _ f0) by (rewrite W1; nia). cbn [bind]. rewrite (@rd_lt F x j f0) by lia. cbn [bind].
      eexists; split; [reflexivity|]. cbn [sum_n]. unfold dense_fn, fn. rewrite Hc. do 3 f_equal. lia.
    + cbn [bind]. rewrite wr_lt by lia. eexists; split; [reflexivity|]. split; [now rewrite upd_length|].
      intros k Hk. unfold fn at 1. destruct (Nat.eq_dec i k) as [ <- |Hne].
      * rewrite nth_upd_same by lia. unfold mv. ring.
      * rewrite nth_upd_other by lia. apply HN. lia.
  - exists t. auto.
Qed.

Lemma dense_has_diag (A : dense F) n : dense_ok A -> d_first A = 0 -> d_row A = n -> d_col A = n ->
  has_diag (dense_if A) n (dense_fn A).
Proof.
  intros (W1 & W2 & W3) Hf Hr Hc v Hv. cbn [dense_if mi_diag]. unfold dense_diag.
  rewrite Hr, Hc, Nat.min_id, Hv, Nat.eqb_refl. cbn [assert_ bind].
  destruct (@for0_inv (list F) (fun k t => length t = n /\ forall i, i < k -> fn t i = dense_fn A i i) n
    (fun i v => a <- rd (d_val A) (n * i + i) ;; wr v i a) v) as (t & -> & HL & HN).
  - split; auto. intros i Hi. lia.
  - intros i t Hi [HL HN]. rewrite (@rd_lt F (d_val A) _ f0) by (rewrite W1; nia). cbn [bind].
    rewrite wr_lt by lia. eexists; split; [reflexivity|]. split; [now rewrite upd_length|].
    intros k Hk. unfold fn at 1. destruct (Nat.eq_dec i k) as [ <- |Hne].
    + rewrite nth_upd_same by lia. unfold dense_fn. now rewrite Hf, Hc.
    + rewrite nth_upd_other by lia. apply HN. lia.
  - exists t. auto.
Qed.
End Formats.
