(** * HistProof: one generic loop for the four solvers (proof support for C117). *)
From Verif Require Import Base Scalar SolverModel SolverSpec HistModel HistSpec.
Set Implicit Arguments.

Section Generic.
Context {F : Type} {SF : Scalar F}.
Variable St : Type.
(** what one pass through the loop does *)
Inductive verdict := Halt (o : outcome (F:=F)) (v : option F) | Go (st : St) (v : F).
Variables (c : cfg (F:=F)) (step : nat -> St -> res verdict) (fx fr : St -> list F).
Definition fin (m : nat) (st : St) : res run := resid <- get_residual c (fr st) ;; Ok (mkOut MAXITER (fx st) m resid, []).
Fixpoint loop (pr : bool) (m n iter : nat) (st : St) : res run :=
  match n with
  | 0 => fin m st
  | S n' => v <- step iter st ;;
      match v with
      | Halt o None => Ok (o, [])
      | Halt o (Some v) => Ok (o, emit pr iter v)
      | Go st v => after (emit pr iter v) (loop pr m n' (S iter) st)
      end
  end.
Definition step_ok : Prop := forall iter st v, step iter st = Ok v ->
  match v with
  | Halt o None => o_code o = BREAKDOWN /\ o_iter o = iter + 1
  | Halt o (Some v) => o_iter o = iter + 1 /\ ((o_code o = SUCCESS /\ below c (iter + 1, v) = true) \/
                         (o_code o = RESIDUAL_NAN /\ below c (iter + 1, v) = false /\ fnan v = true))
  | Go st v => below c (iter + 1, v) = false /\ fnan v = false
  end.

Lemma after_ok l m (o : outcome (F:=F)) h : after l m = Ok (o, h) -> exists h', m = Ok (o, h') /\ h = l ++ h'.
Proof. unfold after. destruct m as [[o' h']| | | |]; cbn [bind]; try discriminate. intros H. injection H as <- <-. cbn. eauto. Qed.

Lemma loop_history : step_ok -> forall m n iter st o h, loop true m n iter st = Ok (o, h) ->
  map fst h = seq (S iter) (length h) /\
  ((o_code o = SUCCESS /\ o_iter o = iter + length h /\ exists h' l, h = h' ++ [l] /\ quiet c h' /\ below c l = true) \/
   (o_code o = RESIDUAL_NAN /\ o_iter o = iter + length h /\ exists h' l, h = h' ++ [l] /\ quiet c h' /\ below c l = false /\ fnan (snd l) = true) \/
   (o_code o = MAXITER /\ o_iter o = m /\ length h = n /\ quiet c h) \/
   (o_code o = BREAKDOWN /\ o_iter o = iter + length h + 1 /\ length h < n /\ quiet c h)).
Proof.
  intros HS m n. assert (Q0 : quiet c []) by (intros l []). induction n as [|n IH]; intros iter st o h; cbn [loop].
  - unfold fin. destruct (get_residual c (fr st)); cbn [bind]; try discriminate. intros H. injection H as <- <-. split; [reflexivity|].
    right; right; left. split; [reflexivity|]. split; [reflexivity|]. split; [reflexivity|]. exact Q0.
  - destruct (step iter st) as [v| | | |] eqn:E; cbn [bind]; try discriminate. specialize (HS _ _ _ E).
    destruct v as [o' [v|]|st' v].
    + intros H. injection H as <- <-. destruct HS as (H1 & [(H2 & H3)|(H2 & H3 & H4)]); cbn [emit map fst length seq].
      * split; [f_equal; lia|]. left. split; [auto|]. split; [auto|]. exists [], (iter + 1, v). auto.
      * split; [f_equal; lia|]. right; left. split; [auto|]. split; [auto|]. exists [], (iter + 1, v). auto.
    + intros H. injection H as <- <-. destruct HS as (H1 & H2). split; [reflexivity|]. right; right; right. cbn [length]. split; [auto|]. split; [lia|]. split; [lia|exact Q0].
    + intros H. apply after_ok in H. destruct H as (h' & H & ->). destruct (IH _ _ _ _ H) as (I1 & I2). cbn [emit app map fst length seq].
      rewrite I1. split; [f_equal; lia|].
      assert (Q : forall h0, quiet c h0 -> quiet c ((iter + 1, v) :: h0)) by (intros h0 Hq l [<-|Hl]; [exact HS|now apply Hq]).
      destruct I2 as [(J1 & J2 & h0 & l & -> & J3 & J4)|[(J1 & J2 & h0 & l & -> & J3 & J4)|[(J1 & J2 & J3 & J4)|(J1 & J2 & J3 & J4)]]].
      * left. split; auto. split; [lia|]. exists ((iter + 1, v) :: h0), l. auto.
      * right; left. split; auto. split; [lia|]. exists ((iter + 1, v) :: h0), l. auto.
      * right; right; left. auto.
      * right; right; right. split; auto. split; [lia|]. split; [lia|]. auto.
Qed.

Lemma loop_silent m n iter st o h : loop false m n iter st = Ok (o, h) -> h = [].
Proof.
  revert iter st o h. induction n as [|n IH]; intros iter st o h; cbn [loop].
  - unfold fin. destruct (get_residual _ _); cbn [bind]; try discriminate. congruence.
  - destruct (step iter st) as [v| | | |]; cbn [bind]; try discriminate. destruct v as [o' [v|]|st' v]; cbn [emit]; try congruence.
    intros H. apply after_ok in H. destruct H as (h' & H & ->). apply IH in H. now subst.
Qed.
(** a smaller limit prints a beginning of the history *)
Lemma loop_begins m1 m2 n1 n2 iter st o1 h1 o2 h2 : n1 <= n2 ->
  loop true m1 n1 iter st = Ok (o1, h1) -> loop true m2 n2 iter st = Ok (o2, h2) -> begins h1 h2.
Proof.
  revert n2 iter st o1 h1 o2 h2. induction n1 as [|n1 IH]; intros n2 iter st o1 h1 o2 h2 L; cbn [loop].
  - unfold fin. destruct (get_residual _ _); cbn [bind]; try discriminate. intros H _. injection H as _ <-. exists h2. reflexivity.
  - destruct n2 as [|n2]; [lia|]. cbn [loop]. destruct (step iter st) as [v| | | |]; cbn [bind]; try discriminate.
    destruct v as [o' [v|]|st' v].
    + intros H1 H2. exists []. rewrite app_nil_r. congruence.
    + intros H1 H2. exists []. rewrite app_nil_r. congruence.
    + intros H1 H2. apply after_ok in H1, H2. destruct H1 as (k1 & H1 & ->), H2 as (k2 & H2 & ->).
      destruct (IH n2 (S iter) st' o1 k1 o2 k2) as (t & ->); auto; [lia|]. exists t. now rewrite app_assoc.
Qed.
(** the k-th line (from 0) is printed by the iteration that starts where the run with limit k ends *)
Lemma loop_line (Inv : St -> Prop) (P : St -> F -> Prop) :
  (forall iter st v, Inv st -> step iter st = Ok v -> match v with Halt o None => True | Halt o (Some v) => P st v | Go st' v => P st v /\ Inv st' end) ->
  forall n iter st m o h k l, Inv st -> loop true m n iter st = Ok (o, h) -> nth_error h k = Some l ->
  exists st', Inv st' /\ P st' (snd l) /\ fst l = iter + k + 1 /\ forall m', loop true m' k iter st = (oh <- fin m' st' ;; Ok (fst oh, firstn k h)).
Proof.
  intros HS n. induction n as [|n IH]; intros iter st m o h k l HI; cbn [loop].
  - unfold fin at 1. destruct (get_residual _ _); cbn [bind]; try discriminate. intros H. injection H as <- <-. destruct k; discriminate.
  - destruct (step iter st) as [v| | | |] eqn:E; cbn [bind]; try discriminate. pose proof (HS _ _ _ HI E) as H1.
    assert (Z : forall (h : list line) m', fin m' st = (oh <- fin m' st ;; Ok (fst oh, firstn 0 h))).
    { intros h0 m'. unfold fin. destruct (get_residual _ _); reflexivity. }
    destruct v as [o' [v|]|st' v].
    + intros H. injection H as <- <-. destruct k; [|destruct k; discriminate]. intros HL. injection HL as <-.
      exists st. split; auto. split; auto. split; [cbn; lia|]. intros m'. apply Z.
    + intros H. injection H as <- <-. destruct k; discriminate.
    + destruct H1 as (H1 & H2). intros H. apply after_ok in H. destruct H as (h' & H & ->). destruct k as [|k]; cbn [emit app nth_error].
      * intros HL. injection HL as <-. exists st. split; auto. split; auto. split; [cbn; lia|]. intros m'. apply Z.
      * intros HL. destruct (IH _ _ _ _ _ _ _ H2 H HL) as (st2 & J0 & J1 & J2 & J3). exists st2. split; auto. split; auto. split; [lia|].
        intros m'. cbn [loop]. rewrite E. cbn [bind]. rewrite J3. unfold fin, after. destruct (get_residual c (fr st2)); cbn [bind]; reflexivity.
Qed.
(** the line printed last is the final residual (when the line is the norm of the residual vector) *)
Definition step_resid : Prop := forall iter st v, step iter st = Ok v ->
  match v with
  | Halt o None => get_residual c (fr st) = Ok (o_resid o)
  | Halt o (Some v) => o_resid o = v
  | Go st' v => get_residual c (fr st') = Ok v
  end.
Lemma loop_last_gen : step_resid -> forall m n iter st o h, loop true m n iter st = Ok (o, h) ->
  match rev h with [] => get_residual c (fr st) = Ok (o_resid o) | l :: _ => snd l = o_resid o end.
Proof.
  intros HS m n. induction n as [|n IH]; intros iter st o h; cbn [loop].
  - unfold fin. destruct (get_residual c (fr st)) eqn:E; cbn [bind]; try discriminate. intros H. injection H as <- <-. reflexivity.
  - destruct (step iter st) as [v| | | |] eqn:E; cbn [bind]; try discriminate. specialize (HS _ _ _ E). destruct v as [o' [v|]|st' v].
    + intros H. injection H as <- <-. cbn. auto.
    + intros H. injection H as <- <-. cbn. auto.
    + intros H. apply after_ok in H. destruct H as (h' & H & ->). apply IH in H. cbn [emit app rev]. destruct (rev h') as [|l t]; cbn [app]; auto.
      cbn [snd]. congruence.
Qed.
(** line k (from 1) is the final residual of the run with limit k *)
Lemma loop_line_run : step_ok -> step_resid -> forall m n iter st o h k, loop true m n iter st = Ok (o, h) -> 1 <= k <= length h ->
  forall m', exists o', loop true m' k iter st = Ok (o', firstn k h) /\ nth_error h (k - 1) = Some (iter + k, o_resid o').
Proof.
  intros H0 HS m n. induction n as [|n IH]; intros iter st o h k; cbn [loop].
  - unfold fin. destruct (get_residual c (fr st)) eqn:E; cbn [bind]; try discriminate. intros H. injection H as <- <-. cbn. lia.
  - destruct (step iter st) as [v| | | |] eqn:E; cbn [bind]; try discriminate. pose proof (HS _ _ _ E) as H1. destruct v as [o' [v|]|st' v].
    + intros H HK m'. injection H as <- <-. cbn [emit length] in HK. replace k with 1 by lia. exists o'. cbn [loop]. rewrite E. cbn [bind]. split; [reflexivity|].
      cbn. now rewrite H1.
    + intros H HK. injection H as <- <-. cbn in HK. lia.
    + intros H HK m'. apply after_ok in H. destruct H as (h' & H & ->). cbn [emit app length] in HK |- *. destruct k as [|k]; [lia|].
      cbn [loop]. rewrite E. cbn [bind]. destruct k as [|k].
      * cbn [loop]. unfold fin. rewrite H1. cbn. eexists; split; reflexivity.
      * destruct (IH _ _ _ _ (S k) H ltac:(lia) m') as (o2 & J1 & J2). rewrite J1. cbn [after bind]. exists o2. split; [reflexivity|].
        replace (S (S k) - 1) with (S (S k - 1)) by lia. cbn [nth_error]. rewrite J2. f_equal. f_equal. lia.
Qed.
End Generic.
