(** * PropertiesGaps: theorems added because an automatic edit of the model survived the others (seeded/LOG.jsonl).

    Part 1: LOBPCG for the generalized problem returns (C76). *)
From Coq Require Import Ring ZArith Arith.Compare_dec.
From Verif Require Import Base Scalar Spec SumFacts SolverModel SolverSpec SolverProof LobModel LobSpec LobProof LobProof2 LobProof3 LobProof4 LobProof5 LobGen LobSafe
  SolverProof2 LobWitness EigModel EigProof DenseModel Observe PropertiesLob.
From Coq Require Import Reals.
Set Implicit Arguments.

Section GEnds.
Context {F : Type} {SF : Scalar F}.
Local Open Scope F_scope.
Hypothesis Ho : ordered_field (F:=F).
Let Hex : exact SF := of_ring Ho.
Let Hlt : lt_strict_law (F:=F) := ordered_strict Ho.
Variables (A B : matif (F:=F)) (n : nat) (M N : nat -> nat -> F).
Hypothesis HA : represents A n M.
Hypothesis HB : represents B n N.
Variable (sygvd : sygvd_t (F:=F)).
Hypothesis Hsz : lapack_sizes sygvd.

Section Loop.
Variables (c : cfg (F:=F)) (m : nat) (pre : list F -> list F -> res (list F)).
Hypothesis Hpre : forall r z, length r = n -> length z = n -> exists z', pre r z = Ok z' /\ length z' = n.

Lemma glob_pass_fuel iter singular call st : ginv m n M N st -> glob_pass c A B pre sygvd m n iter singular call st <> NoFuel.
Proof.
  intros Hst. unfold glob_pass. set (small := ((iter =? 0)%nat || singular)).
  fold (basis small (h_a st)) (abasis small (h_a st)) (bbasis small st).
  destruct (basis_images small (proj1 Hst)) as (B1 & B2 & _). destruct (bbasis_images small Hst) as (B3 & _).
  destruct (gram_ok Hex B2 B1) as (Sa & Ea & Ha & _). destruct (gram_ok Hex B3 B1) as (Sb & Eb & Hb & _).
  rewrite Ea. cbn [bind]. rewrite Eb. cbn [bind].
  destruct (sygvd call Sa Sb) as [[info lam] V] eqn:Es.
  destruct (judge m small info) eqn:Ej; try discriminate.
  pose proof (Hsz call Ha Hb) as Hz. rewrite Es in Hz.
  assert (Hans : answers m small lam V) by (unfold answers, dim in *; destruct small; auto).
  assert (T : exists st' rs bad, glob_rows A B pre m n small st lam V m 0 st [] = Ok (st', rs, bad)).
  { destruct (le_lt_dec 1 m) as [Hm|Hm].
    - destruct (@glob_rows_total F SF Hex A pre m n M HA Hpre Hm B N HB small st lam V Hst Hans m 0%nat st [] eq_refl Hst eq_refl) as (st' & rs & bad & E & L). eauto.
    - replace m with 0%nat by lia. cbn [glob_rows]. eauto. }
  destruct T as (st' & rs & bad & E). rewrite E. cbn [bind].
  destruct bad as [r|]; [discriminate|]. destruct rs as [|r rs]; cbn [v_max bind]; [discriminate|].
  destruct (_ && _); discriminate.
Qed.

Lemma glob_loop_ends : (forall call Sa Sb, shaped (2 * m) (2 * m) Sa -> shaped (2 * m) (2 * m) Sb ->
    judge m true (fst (fst (sygvd call Sa Sb))) <> VRestart) ->
  forall (fuel iter : nat) (singular : bool) call st resid info, ginv m n M N st -> (iter <= s_maxiter c)%nat ->
    (2 * (s_maxiter c - iter) + (if singular then 0 else 1) <= fuel)%nat -> (singular = true -> (iter < s_maxiter c)%nat) ->
    glob_loop c A B pre sygvd m n fuel iter singular call st resid info <> NoFuel.
Proof.
  intros Hns. induction fuel as [|fuel IH]; intros iter singular call st resid info Hst Hit Hf Hs.
  - destruct singular; [specialize (Hs eq_refl)|]; lia.
  - cbn [glob_loop]. destruct (iter <? s_maxiter c) eqn:Ei; [|discriminate]. apply Nat.ltb_lt in Ei.
    pose proof (@glob_pass_fuel iter singular call st Hst) as Hnf.
    destruct (glob_pass c A B pre sygvd m n iter singular call st) as [p| | | |] eqn:Ep; cbn [bind]; try discriminate; [|now destruct Hnf].
    pose proof (@glob_pass_ok F SF Hex Hlt c A B pre sygvd m n M N HA HB Hpre iter singular call st p Hst Ep) as Hp. cbv zeta in Hp.
    destruct p as [i|o'|st' resid' i]; [|discriminate|].
    + destruct Hp as (Sa & Sb & H1 & H2 & H3 & H4). destruct ((iter =? 0)%nat || singular) eqn:Esm.
      * exfalso. destruct (basis_images true (proj1 Hst)) as (B1 & B2 & _). destruct (bbasis_images true Hst) as (B3 & _).
        destruct (gram_ok Hex B2 B1) as (Sa' & Ea & Ha & _). destruct (gram_ok Hex B3 B1) as (Sb' & Eb & Hb & _).
        rewrite H1 in Ea. injection Ea as <-. rewrite H2 in Eb. injection Eb as <-.
        apply (Hns call Sa Sb); [exact Ha|exact Hb|]. now rewrite H3.
      * apply orb_false_iff in Esm. destruct Esm as (_ & ->). apply IH; auto; lia.
    + destruct Hp as (H1 & _). apply IH; auto; destruct singular; lia.
Qed.
End Loop.

(** it returns if ?sygvd never calls the first two blocks of vectors dependent: then 2 maxiter + 1 passes are enough *)
Theorem C76_generalized_terminates_partial c s pre l xcol x itype li lr : pre_ok A n pre ->
  (forall call Sa Sb, shaped (2 * length l) (2 * length l) Sa -> shaped (2 * length l) (2 * length l) Sb ->
    let info := fst (fst (sygvd call Sa Sb)) in ~ (3 * Z.of_nat (length l) < info <= 4 * Z.of_nat (length l))%Z) ->
  globpcg_solve (2 * s_maxiter c + 1) c s A B pre sygvd l xcol x itype li lr <> NoFuel.
Proof.
  intros (apply & Ep & Ha) Hn. unfold globpcg_solve. destruct (s_lib c); [|discriminate]. unfold globpcg, require_, assert_.
  destruct (itype =? 1)%Z; cbn [bind]; [|discriminate].
  destruct (mi_col A =? xcol)%nat; cbn [bind]; [|discriminate].
  destruct (_ && _); cbn [bind]; [|discriminate].
  destruct (length l =? length x)%nat eqn:E2; cbn [bind]; [|discriminate]. apply Nat.eqb_eq in E2.
  rewrite Ep. cbn [bind]. assert (En : mi_col A = n) by apply HA. rewrite En.
  pose proof (@start_rows_ok F SF Hex (length l) n s x (eq_sym E2)) as Hsh.
  destruct (start_rows n s x) as [xs| | | |]; cbn [safe bind] in *; try discriminate; [|contradiction].
  destruct (@traverse_total _ _ (glob_init_row A B n) xs) as (init & Ei).
  { intros r Hr. apply (@ginit_row_total F SF Hex A n M HA B N HB). exact (shaped_In _ Hsh Hr). }
  rewrite Ei. cbn [bind].
  pose proof (@gstart_inv F SF Hex A B (length l) n M N HA HB l xs init eq_refl Hsh Ei) as Hi.
  apply (@glob_loop_ends c (length l) apply Ha); [|exact Hi|lia|lia|discriminate].
  intros call Sa Sb H1 H2. specialize (Hn call Sa Sb H1 H2). cbv zeta in Hn.
  unfold judge, lbound, ubound. destruct (_ && _) eqn:E.
  - exfalso. apply Hn. apply andb_prop in E. lia.
  - match goal with |- (if ?b then _ else _) <> _ => destruct b end; discriminate.
Qed.

(** no library but monolish's own: nothing is done and the code is that of success *)
Theorem C76_other_library fuel c s pre l xcol x itype li lr : s_lib c <> 0%nat ->
  globpcg_solve fuel c s A B pre sygvd l xcol x itype li lr = Ok (mkLout SUCCESS l x li lr 0).
Proof. intros H. unfold globpcg_solve. destruct (s_lib c); [contradiction|reflexivity]. Qed.
End GEnds.
(** the hypotheses: any ?sygvd that reports nothing and returns arrays of the sizes asked for *)
Theorem C76_generalized_terminates_example maxiter :
  @globpcg_solve R Rscalar (2 * maxiter + 1) (mkCfg 0 (1 / 1000)%R 0 maxiter 0 1%R) USER (@dense_if R Rscalar id2) (@dense_if R Rscalar two2) pc_none
    (fun _ Sa _ => (0%Z, repeat 1%R (length Sa), repeat (repeat 1%R (length Sa)) (length Sa))) [0%R] 2 [[1; 0]%R] 1 0 0%R <> NoFuel.
Proof.
  assert (Hd : forall D, d_row D = 2%nat -> d_col D = 2%nat -> dense_ok D -> @represents R Rscalar (@dense_if R Rscalar D) 2 (@dense_fn R Rscalar D)).
  { intros D H1 H2 H3. now apply (@dense_represents R Rscalar R_exact). }
  apply (@C76_generalized_terminates_partial R Rscalar R_ordered _ _ 2 _ _ (Hd id2 eq_refl eq_refl ltac:(unfold dense_ok; cbn; lia)) (Hd two2 eq_refl eq_refl ltac:(unfold dense_ok; cbn; lia))).
  - intros call d Sa Sb Ha _. destruct Ha as (Ha & _). rewrite Ha. split; [apply repeat_length|]. apply shaped_of_In; [apply repeat_length|].
    intros r Hr. apply repeat_spec in Hr. subst r. apply repeat_length.
  - apply none_ok.
  - intros call Sa Sb _ _. cbn. lia.
Qed.
