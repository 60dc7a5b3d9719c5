(** * LobSafe: no undefined behaviour and no abort inside the LOBPCG solvers (proof support for C81). *)
From Coq Require Import Ring.
From Verif Require Import Base Scalar Spec SumFacts SolverModel SolverSpec SolverProof LobModel LobSpec LobProof LobProof2 LobProof3 LobProof5 LobGen.
Set Implicit Arguments.

(** returns, or still runs, or throws in a situation Q *)
Definition fine {T} (Q : Prop) (x : res T) : Prop := match x with UB | Abort => False | Throw => Q | _ => True end.
Lemma fine_bind {S T} Q (x : res S) (f : S -> res T) : fine Q x -> (forall a, x = Ok a -> fine Q (f a)) -> fine Q (bind x f).
Proof. destruct x; cbn; auto. Qed.

Section Safe.
Context {F : Type} {SF : Scalar F}.
Local Open Scope F_scope.
Hypothesis Hex : exact SF.
Hypothesis Hlt : lt_strict_law (F:=F).
Variables (c : cfg (F:=F)) (A : matif (F:=F)) (pre : list F -> list F -> res (list F)) (sygvd : sygvd_t (F:=F)).
Variables (m n : nat) (M : nat -> nat -> F).
Hypothesis HA : represents A n M.
Hypothesis Hpre : forall r z, length r = n -> length z = n -> exists z', pre r z = Ok z' /\ length z' = n.
Hypothesis Hm : (1 <= m)%nat.
(** ?sygvd works in the arrays it is given *)
Hypothesis Hsz : lapack_sizes sygvd.

(** ?sygvd reported a failure the solver throws for *)
Definition reported : Prop := exists call Sa Sb, let info := fst (fst (sygvd call Sa Sb)) in info <> 0%Z /\ (info < Z.of_nat m)%Z.

Lemma judge_throw small info : judge m small info = VThrow -> info <> 0%Z /\ (info < Z.of_nat m)%Z.
Proof.
  unfold judge. destruct (_ && _); [discriminate|].
  destruct (negb (info =? 0)%Z && (info <? Z.of_nat m)%Z) eqn:E; [|discriminate]. intros _. apply andb_prop in E. destruct E as (E1 & E2).
  apply negb_true_iff, Z.eqb_neq in E1. apply Z.ltb_lt in E2. auto.
Qed.

Lemma lob_pass_fine iter singular call st : linv m n M st -> fine reported (lob_pass c A pre sygvd m n iter singular call st).
Proof.
  intros Hst. unfold lob_pass. set (small := ((iter =? 0)%nat || singular)).
  fold (basis small st) (abasis small st).
  destruct (basis_images small Hst) as (B1 & B2 & _).
  destruct (gram_ok Hex B2 B1) as (Sa & Ea & Ha & _). destruct (gram_ok Hex B1 B1) as (Sb & Eb & Hb & _).
  rewrite Ea. cbn [bind]. rewrite Eb. cbn [bind].
  destruct (sygvd call Sa Sb) as [[info lam] V] eqn:Es.
  destruct (judge m small info) eqn:Ej; cbn [fine]; auto.
  { exists call, Sa, Sb. rewrite Es. cbn. exact (@judge_throw small info Ej). }
  pose proof (Hsz call Ha Hb) as Hz. rewrite Es in Hz.
  assert (Hans : answers m small lam V) by (unfold answers, dim in *; destruct small; auto).
  assert (L := @lob_rows_ok F SF Hex A pre m n M HA Hpre small st lam V Hst m 0%nat st [] eq_refl Hst eq_refl ltac:(intros j Hj; lia)).
  destruct (lob_rows A pre m n small st lam V m 0 st []) as [[[st' rs] [r|]]| | | |]; cbn [no_hang bind fine] in *; auto; try contradiction.
  destruct L as (_ & _ & _ & L & _). destruct rs as [|r rs]; [cbn in L; lia|]. cbn [v_max bind].
  destruct (_ && _); exact I.
Qed.

Lemma lob_loop_fine fuel : forall iter singular call st resid info, linv m n M st ->
  fine reported (lob_loop c A pre sygvd m n fuel iter singular call st resid info).
Proof.
  induction fuel as [|fuel IH]; intros iter singular call st resid info Hst; cbn [lob_loop]; [exact I|].
  destruct (iter <? s_maxiter c); [|exact I]. apply fine_bind; [now apply lob_pass_fine|].
  intros p Ep. pose proof (@lob_pass_ok F SF Hex c A pre sygvd m n M HA Hpre Hlt iter singular call st Hst) as Hp. rewrite Ep in Hp. cbn [safe] in Hp.
  destruct p as [i|o|st' resid' i]; [now apply IH|exact I|apply IH, Hp].
Qed.

(** *** the generalized solver *)
Variables (B : matif (F:=F)) (N : nat -> nat -> F).
Hypothesis HB : represents B n N.
Local Notation ginv := (ginv m n M N).

Ltac lb H := let v := fresh "v" in let E := fresh "E" in apply bind_ok in H; destruct H as (v & E & H); try rewrite E; cbn [bind].

Lemma glob_row_total small o lam V i st a r : ginv o -> ginv st -> (i < m)%nat ->
  lob_row A pre m n small (h_a o) lam V i (h_a st) = Ok (a, r) ->
  exists st', glob_row A B pre m n small o lam V i st = Ok (st', r).
Proof.
  intros Ho Hst Hi H. destruct Ho as (_ & ow & ox & op). pose proof Hst as (Hsta & sw & sx & sp).
  revert H. unfold lob_row, glob_row. intros H.
  lb H. lb H. lb H. destruct (coeffs_inv _ _ _ _ E1) as (_ & Lb & _).
  destruct (@combine_images F SF Hex n m N v1 _ _ _ _ _ _ Lb ow ox op) as (p & x & BP & BX & C1 & C3 & Lp & Lx & LBP & LBX & _).
  lb H. destruct v2 as [p' x']. rewrite C1 in E2. injection E2 as <- <-. lb H. destruct v2 as [P X].
  rewrite C3. cbn [bind]. lb H. lb H. lb H. lb H. lb H. lb H. lb H. lb H.
  rewrite (rd_lt (h_BW st) []) by (destruct sw as (_ & (? & _) & _); lia). cbn [bind].
  assert (T : forall BW gw gx gp gW gX gP,
    (hW <- wr (h_BW st) i BW ;; hX <- wr (h_BX st) i (v_scal (1 / v3) BX) ;; hP <- wr (h_BP st) i (v_scal (1 / v2) BP) ;;
     Ok (mkG (mkL gw gx gp gW gX gP v0 v6) hW hX hP, v8)) =
    Ok (mkG (mkL gw gx gp gW gX gP v0 v6) (upd (h_BW st) i BW) (upd (h_BX st) i (v_scal (1 / v3) BX)) (upd (h_BP st) i (v_scal (1 / v2) BP)), v8)).
  { intros. rewrite wr_lt by (destruct sw as (_ & (? & _) & _); lia). cbn [bind].
    rewrite wr_lt by (destruct sx as (_ & (? & _) & _); lia). cbn [bind].
    rewrite wr_lt by (destruct sp as (_ & (? & _) & _); lia). cbn [bind]. reflexivity. }
  destruct (fnan v8).
  - cbn [bind] in *. lb H. lb H. lb H. lb H. lb H. lb H. rewrite T. injection H as _ <-. eauto.
  - lb H. destruct v10 as [w W]. lb E11. injection E11 as <- <-.
    assert (Lw : length v7 = n).
    { assert (L5 : length v5 = n).
      { assert (Lx' : length (v_scal (1 / v3) x) = n) by now rewrite v_scal_length.
        unfold v_axpyz, assert_ in E6.
        match type of E6 with bind (if ?b then _ else _) _ = _ => destruct b end; cbn [bind] in E6; [|discriminate].
        injection E6 as <-. now rewrite zipw_length. }
      destruct (Hpre v5 (g_tmp (h_a st)) L5) as (z & Ez & Lz); [apply Hsta|]. rewrite Ez in E7. injection E7 as <-.
      rewrite (@v_copy_ok F n z v5) in E8 by auto. now injection E8 as <-. }
    destruct HB as (_ & _ & Hmv). destruct (Hmv (v_scal (1 / v8) v7) (nth i (h_BW st) [])) as (BW & EB & _); [now rewrite v_scal_length|apply sw; auto|].
    rewrite EB. cbn [bind] in *. lb H. lb H. lb H. lb H. lb H. lb H. rewrite T. injection H as _ <-. eauto.
Qed.

Lemma glob_rows_total small o lam V : ginv o -> answers m small lam V -> forall k i st acc, (i + k = m)%nat -> ginv st -> length acc = i ->
  exists st' rs bad, glob_rows A B pre m n small o lam V k i st acc = Ok (st', rs, bad) /\ (bad = None -> length rs = m).
Proof.
  intros Ho Hans. induction k as [|k IH]; intros i st acc Hk Hst La; cbn [glob_rows].
  - exists st, acc, None. split; auto. intros _. lia.
  - assert (Hi : (i < m)%nat) by lia.
    pose proof (@lob_row_ok F SF Hex A pre m n M HA Hpre small (h_a o) lam V i (h_a st) (proj1 Ho) (proj1 Hst) Hi) as L.
    destruct (lob_row A pre m n small (h_a o) lam V i (h_a st)) as [[a r]| | | |] eqn:E; cbn [no_hang] in L; try contradiction.
    destruct (@glob_row_total small o lam V i st a r Ho Hst Hi E) as (st1 & E1). rewrite E1. cbn [bind].
    destruct (fnan r) eqn:En; [exists st1, acc, (Some r); split; auto; discriminate|].
    apply IH; [lia| |rewrite app_length; cbn; lia].
    exact (proj2 (@glob_row_inv F SF Hex A B pre m n M N HA HB Hpre small o lam V i st st1 r Ho Hst Hi E1) En).
Qed.

Lemma glob_pass_fine iter singular call st : ginv st -> fine reported (glob_pass c A B pre sygvd m n iter singular call st).
Proof.
  intros Hst. unfold glob_pass. set (small := ((iter =? 0)%nat || singular)).
  fold (basis small (h_a st)) (abasis small (h_a st)) (bbasis small st).
  destruct (basis_images small (proj1 Hst)) as (B1 & B2 & _). destruct (bbasis_images small Hst) as (B3 & _).
  destruct (gram_ok Hex B2 B1) as (Sa & Ea & Ha & _). destruct (gram_ok Hex B3 B1) as (Sb & Eb & Hb & _).
  rewrite Ea. cbn [bind]. rewrite Eb. cbn [bind].
  destruct (sygvd call Sa Sb) as [[info lam] V] eqn:Es.
  destruct (judge m small info) eqn:Ej; cbn [fine]; auto.
  { exists call, Sa, Sb. rewrite Es. cbn. exact (@judge_throw small info Ej). }
  pose proof (Hsz call Ha Hb) as Hz. rewrite Es in Hz.
  assert (Hans : answers m small lam V) by (unfold answers, dim in *; destruct small; auto).
  destruct (@glob_rows_total small st lam V Hst Hans m 0%nat st [] eq_refl Hst eq_refl) as (st' & rs & bad & E & L). rewrite E. cbn [bind].
  destruct bad as [r|]; [exact I|]. specialize (L eq_refl). destruct rs as [|r rs]; [cbn in L; lia|]. cbn [v_max bind].
  destruct (_ && _); exact I.
Qed.

Lemma glob_loop_fine fuel : forall iter singular call st resid info, ginv st ->
  fine reported (glob_loop c A B pre sygvd m n fuel iter singular call st resid info).
Proof.
  induction fuel as [|fuel IH]; intros iter singular call st resid info Hst; cbn [glob_loop]; [exact I|].
  destruct (iter <? s_maxiter c); [|exact I]. apply fine_bind; [now apply glob_pass_fine|].
  intros p Ep. pose proof (@glob_pass_ok F SF Hex Hlt c A B pre sygvd m n M N HA HB Hpre iter singular call st p Hst Ep) as Hp.
  destruct p as [i|o|st' resid' i]; [now apply IH|exact I|apply IH, Hp].
Qed.
End Safe.

(** ** whole calls *)
Section Calls.
Context {F : Type} {SF : Scalar F}.
Local Open Scope F_scope.
Hypothesis Hex : exact SF.
Hypothesis Hlt : lt_strict_law (F:=F).
Variables (A : matif (F:=F)) (n : nat) (M : nat -> nat -> F).
Hypothesis HA : represents A n M.
Variable (sygvd : sygvd_t (F:=F)).
Hypothesis Hsz : lapack_sizes sygvd.

Definition starts_ok (s : initvec (F:=F)) (x : list (list F)) : Prop :=
  match s with RANDOM rnd => forall i, length (rnd i) = n | USER => True end.

Lemma traverse_total {X Y} (f : X -> res Y) l : (forall x, In x l -> exists y, f x = Ok y) -> exists ys, traverse f l = Ok ys.
Proof.
  induction l as [|x l IH]; intros H; cbn [traverse]; [eauto|]. destruct (H x) as (y & E); [left; auto|]. rewrite E. cbn [bind].
  destruct IH as (ys & E'); [intros; apply H; right; auto|]. rewrite E'. cbn [bind]. eauto.
Qed.
Lemma start_rows_total s x : starts_ok s x -> shaped (length x) n x -> exists xs, start_rows n s x = Ok xs.
Proof.
  intros Hs (_ & Hx). destruct s as [rnd|]; cbn [start_rows].
  - apply traverse_total. intros i _. rewrite (@v_copy_ok F n (rnd i)) by (rewrite ?repeat_length; auto). cbn [bind].
    rewrite (v_nrm2_exact Hex (rnd i) (Hs i)). cbn [bind]. eauto.
  - apply traverse_total. intros r Hr. destruct (In_nth x r [] Hr) as (i & Hi & E).
    exists r. apply (@v_copy_ok F n); [rewrite <- E; auto|apply repeat_length].
Qed.

Lemma lobpcg_fine fuel c s pre l xcol x li lr : pre_ok A n pre -> (1 <= length l)%nat -> starts_ok s x -> shaped (length x) xcol x ->
  fine (reported sygvd (length l) \/ xcol <> n \/ length l <> length x) (lobpcg_solve fuel c s A pre sygvd l xcol x li lr).
Proof.
  intros (apply & Ep & Ha) Hm Hs Hx. unfold lobpcg_solve. destruct (s_lib c); [|exact I]. unfold lobpcg, require_.
  assert (En : mi_col A = n) by apply HA. rewrite En.
  destruct (n =? xcol)%nat eqn:E1; cbn [bind fine]; [|apply Nat.eqb_neq in E1; auto]. apply Nat.eqb_eq in E1. subst xcol.
  destruct (length l =? length x)%nat eqn:E2; cbn [bind fine]; [|apply Nat.eqb_neq in E2; auto]. apply Nat.eqb_eq in E2.
  rewrite Ep. cbn [bind]. destruct (@start_rows_total s x Hs Hx) as (xs & Es). rewrite Es. cbn [bind].
  pose proof (@start_rows_ok F SF Hex (length l) n s x (eq_sym E2)) as Hsh. rewrite Es in Hsh. cbn [safe] in Hsh.
  destruct (@start_inv F SF Hex A (length l) n M HA l xs eq_refl Hsh) as (init & Ei & Hi). rewrite Ei. cbn [bind].
  pose proof (@lob_loop_fine F SF Hex Hlt c A apply sygvd (length l) n M HA Ha Hm Hsz fuel 0%nat false 0%nat _ 0 0%Z Hi) as G.
  unfold start_state in G. destruct (lob_loop c A apply sygvd (length l) n fuel 0 false 0 _ 0 0%Z); cbn [fine] in *; auto.
Qed.

Variables (B : matif (F:=F)) (N : nat -> nat -> F).
Hypothesis HB : represents B n N.
Lemma ginit_row_total x : length x = n -> exists t, glob_init_row A B n x = Ok t.
Proof.
  intros Lx. destruct HA as (_ & _ & Hmv). destruct HB as (_ & _ & Hmb). unfold glob_init_row.
  destruct (Hmv x (repeat 0 n) Lx (repeat_length _ _)) as (X' & EX & LX & VX). rewrite EX. cbn [bind].
  destruct (Hmb x (repeat 0 n) Lx (repeat_length _ _)) as (BX' & EBX & LBX & VBX). rewrite EBX. cbn [bind].
  rewrite (v_dot_exact Hex _ _ Lx LX). cbn [bind]. rewrite (v_dot_exact Hex _ _ Lx LBX). cbn [bind].
  rewrite (@v_axpyz_ok F SF n _ x BX' (repeat 0 n)) by (auto; apply repeat_length). cbn [bind].
  set (w0 := zipw _ _ _). assert (Lw : length w0 = n) by (unfold w0; rewrite zipw_length; auto).
  rewrite (v_nrm2_exact Hex _ Lw). cbn [bind]. set (w' := v_scal _ w0). assert (Lw' : length w' = n) by (unfold w'; rewrite v_scal_length; auto).
  destruct (Hmv w' (repeat 0 n) Lw' (repeat_length _ _)) as (W' & EW & LW & VW). rewrite EW. cbn [bind].
  destruct (Hmb w' (repeat 0 n) Lw' (repeat_length _ _)) as (BW' & EBW & LBW & VBW). rewrite EBW. cbn [bind]. eauto.
Qed.
Lemma globpcg_fine fuel c s pre l xcol x itype li lr : pre_ok A n pre -> (1 <= length l)%nat -> starts_ok s x -> shaped (length x) xcol x -> itype = 1%Z ->
  fine (reported sygvd (length l) \/ xcol <> n \/ length l <> length x) (globpcg_solve fuel c s A B pre sygvd l xcol x itype li lr).
Proof.
  intros (apply & Ep & Ha) Hm Hs Hx ->. unfold globpcg_solve. destruct (s_lib c); [|exact I]. unfold globpcg, require_, assert_.
  assert (En : mi_col A = n) by apply HA. assert (En' : mi_row A = n) by apply HA.
  assert (Eb : mi_col B = n) by apply HB. assert (Eb' : mi_row B = n) by apply HB. rewrite En, En', Eb, Eb', Nat.eqb_refl. cbn [Z.eqb Pos.eqb bind andb].
  destruct (n =? xcol)%nat eqn:E1; cbn [bind fine]; [|apply Nat.eqb_neq in E1; auto]. apply Nat.eqb_eq in E1. subst xcol.
  destruct (length l =? length x)%nat eqn:E2; cbn [bind fine]; [|apply Nat.eqb_neq in E2; auto]. apply Nat.eqb_eq in E2.
  rewrite Ep. cbn [bind]. destruct (@start_rows_total s x Hs Hx) as (xs & Es). rewrite Es. cbn [bind].
  pose proof (@start_rows_ok F SF Hex (length l) n s x (eq_sym E2)) as Hsh. rewrite Es in Hsh. cbn [safe] in Hsh.
  destruct (@traverse_total _ _ (glob_init_row A B n) xs) as (init & Ei).
  { intros r Hr. apply ginit_row_total. exact (shaped_In _ Hsh Hr). }
  rewrite Ei. cbn [bind].
  pose proof (@gstart_inv F SF Hex A B (length l) n M N HA HB l xs init eq_refl Hsh Ei) as Hi.
  pose proof (@glob_loop_fine F SF Hex Hlt c A apply sygvd (length l) n M HA Ha Hm Hsz B N HB fuel 0%nat false 0%nat _ 0 0%Z Hi) as G.
  unfold gstart_state in G. destruct (glob_loop c A B apply sygvd (length l) n fuel 0 false 0 _ 0 0%Z); cbn [fine] in *; auto.
Qed.
End Calls.
