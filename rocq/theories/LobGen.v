(** * LobGen: the generalized LOBPCG solver (proof support for C79, C80). *)
From Coq Require Import Ring.
From Verif Require Import Base Scalar Spec SumFacts SolverModel SolverSpec SolverProof LobModel LobSpec LobProof LobProof2 LobProof3.
Set Implicit Arguments.

Section Gen.
Context {F : Type} {SF : Scalar F}.
Local Open Scope F_scope.
Hypothesis Hex : exact SF.
Let Hrt : ring_theory f0 f1 fadd fmul fsub fopp (@eq F) := Hex.
Add Ring FringLobG : Hrt.
Hypothesis Hlt : lt_strict_law (F:=F).
Variables (c : cfg (F:=F)) (A B : matif (F:=F)) (pre : list F -> list F -> res (list F)) (sygvd : sygvd_t (F:=F)).
Variables (m n : nat) (M N : nat -> nat -> F).
Hypothesis HA : represents A n M.
Hypothesis HB : represents B n N.
Hypothesis Hpre : forall r z, length r = n -> length z = n -> exists z', pre r z = Ok z' /\ length z' = n.
Local Notation linv := (linv m n M).

Definition ginv (st : glst (F:=F)) : Prop :=
  linv (h_a st) /\ images n m N (g_w (h_a st)) (h_BW st) /\ images n m N (g_x (h_a st)) (h_BX st) /\ images n m N (g_p (h_a st)) (h_BP st).

Lemma images_scal_upd ws Ws i a x X : images n m N ws Ws -> length x = n -> length X = n ->
  (forall k, (k < n)%nat -> fn X k = mv n N (fn x) k) -> images n m N (upd ws i (v_scal a x)) (upd Ws i (v_scal a X)).
Proof.
  intros H Lx LX E. apply images_upd; auto; try now rewrite v_scal_length.
  intros k Hk. rewrite v_scal_fn by lia. rewrite E by auto. rewrite <- (mv_scal Hex). apply mv_ext. intros j Hj. now rewrite v_scal_fn by lia.
Qed.

Ltac ub H := let v := fresh "v" in let E := fresh "E" in apply bind_ok in H; destruct H as (v & E & H); try rewrite E; cbn [bind].

Lemma glob_row_inv small o lam V i st st' r : ginv o -> ginv st -> (i < m)%nat ->
  glob_row A B pre m n small o lam V i st = Ok (st', r) ->
  lob_row A pre m n small (h_a o) lam V i (h_a st) = Ok (h_a st', r) /\ (fnan r = false -> ginv st').
Proof.
  intros Ho Hst Hi H.
  assert (P1 : lob_row A pre m n small (h_a o) lam V i (h_a st) = Ok (h_a st', r)).
  { revert H. unfold glob_row, lob_row. intros H.
    ub H. ub H. ub H. ub H. destruct v2 as [p x]. ub H. destruct v2 as [P X]. ub H. destruct v2 as [BP BX]. clear E4.
    ub H. ub H. ub H. ub H. ub H. ub H. ub H. ub H. ub H. clear E12.
    destruct (fnan v8).
    - cbn [bind] in *. ub H. ub H. ub H. ub H. ub H. ub H. ub H. ub H. ub H. injection H as <- <-. reflexivity.
    - destruct (mi_vec A (v_scal (1 / v8) v7) v9); cbn [bind] in *; try discriminate.
      destruct (mi_vec B (v_scal (1 / v8) v7) v10); cbn [bind] in *; try discriminate.
      ub H. ub H. ub H. ub H. ub H. ub H. ub H. ub H. ub H. injection H as <- <-. reflexivity. }
  split; auto. intros En.
  destruct Ho as (Ho & ow & ox & op). destruct Hst as (Hst & sw & sx & sp).
  pose proof (@lob_row_ok F SF Hex A pre m n M HA Hpre small (h_a o) lam V i (h_a st) Ho Hst Hi) as L.
  rewrite P1 in L. cbn [no_hang] in L. destruct L as (_ & L & _). specialize (L En). clear P1.
  revert H. unfold glob_row. intros H.
  ub H. ub H. ub H. destruct (coeffs_inv _ _ _ _ E1) as (_ & Lb & _).
  destruct (@combine_images F SF Hex n m N v1 _ _ _ _ _ _ Lb ow ox op) as (p & x & BP & BX & C1 & C3 & Lp & Lx & LBP & LBX & EBP & EBX & _).
  rewrite C1 in H. cbn [bind] in H. ub H. destruct v2 as [P X]. rewrite C3 in H. cbn [bind] in H.
  ub H. ub H. ub H. ub H. ub H. ub H. ub H. ub H. ub H. rename v8 into r'.
  destruct (fnan r') eqn:En'.
  { exfalso. cbn [bind] in H. ub H. ub H. ub H. ub H. ub H. ub H. ub H. ub H. ub H. injection H as <- <-. congruence. }
  ub H. destruct v8 as [[w W] BW]. ub E12. ub E12. injection E12 as <- <- <-.
  ub H. apply wr_inv in E12. ub H. apply wr_inv in E15. ub H. apply wr_inv in E16. ub H. apply wr_inv in E17. ub H. apply wr_inv in E18. ub H. apply wr_inv in E19.
  ub H. apply wr_inv in E20. ub H. apply wr_inv in E21. ub H. apply wr_inv in E22. injection H as <- <-.
  destruct E12 as (_ & ->), E15 as (_ & ->), E16 as (_ & ->), E17 as (_ & ->), E18 as (_ & ->), E19 as (_ & ->), E20 as (_ & ->), E21 as (_ & ->), E22 as (_ & ->).
  cbn [h_a] in L. split; [exact L|]. cbn [h_a h_BW h_BX h_BP g_w g_x g_p].
  split; [|split; apply images_scal_upd; auto].
  destruct L as (((Lw1 & Lw2) & _) & _). cbn [g_w] in *. specialize (Lw2 i Hi). rewrite nth_upd_same in Lw2 by (destruct sw as ((? & _) & _); lia).
  destruct HB as (_ & _ & Hmv). destruct (Hmv (v_scal (1 / r') v7) v10) as (y & Ey & Ly & Vy); auto.
  { pose proof (rd_nth _ _ [] E11) as En9. rewrite <- En9. apply sw. auto. }
  rewrite E14 in Ey. injection Ey as <-. apply images_upd; auto.
Qed.

Lemma glob_rows_inv small o lam V : ginv o -> forall k i st acc st' rs bad, (i + k = m)%nat -> ginv st ->
  glob_rows A B pre m n small o lam V k i st acc = Ok (st', rs, bad) ->
  lob_rows A pre m n small (h_a o) lam V k i (h_a st) acc = Ok (h_a st', rs, bad) /\ (bad = None -> ginv st').
Proof.
  intros Ho. induction k as [|k IH]; intros i st acc st' rs bad Hk Hst H; cbn [glob_rows lob_rows] in *.
  - injection H as <- <- <-. auto.
  - apply bind_ok in H. destruct H as ((st1 & r) & E & H).
    destruct (@glob_row_inv small o lam V i st st1 r Ho Hst ltac:(lia) E) as (E1 & G1). rewrite E1. cbn [bind].
    destruct (fnan r) eqn:En.
    + injection H as <- <- <-. split; auto. discriminate.
    + apply IH; auto. lia.
Qed.

Definition bbasis (small : bool) (st : glst (F:=F)) := if small then h_BW st ++ h_BX st else h_BW st ++ h_BX st ++ h_BP st.

Lemma bbasis_images small st : ginv st ->
  shaped (dim m small) n (bbasis small st) /\
  forall i k, (i < dim m small)%nat -> (k < n)%nat -> rowf (bbasis small st) i k = mv n N (rowf (basis small (h_a st)) i) k.
Proof.
  intros ((_ & _ & _ & Hl & Ht) & Iw & Ix & Ip).
  pose (st' := mkL (g_w (h_a st)) (g_x (h_a st)) (g_p (h_a st)) (h_BW st) (h_BX st) (h_BP st) (g_l (h_a st)) (g_tmp (h_a st))).
  assert (H : LobProof.linv m n N st') by (unfold LobProof.linv; cbn; auto).
  destruct (basis_images small H) as (_ & H1 & H2). split; [exact H1|exact H2].
Qed.

(** one accepted pass *)
Definition gstep (small : bool) (call : nat) (st : glst (F:=F)) (l : list F) (X : list (list F)) (rs : list F) (info : Z) : Prop :=
  exists Sa Sb lam V, gram (abasis small (h_a st)) (basis small (h_a st)) = Ok Sa /\ gram (bbasis small st) (basis small (h_a st)) = Ok Sb /\
    sygvd call Sa Sb = (info, lam, V) /\ judge m small info = VUse /\ length rs = m /\
    forall j, (j < m)%nat -> row_done pre m n M small (h_a st) lam V l X j (fn rs j).

Lemma glob_pass_ok iter singular call st p : ginv st ->
  glob_pass c A B pre sygvd m n iter singular call st = Ok p ->
    let small := (iter =? 0)%nat || singular in
    match p with
    | GRestart info => exists Sa Sb, gram (abasis small (h_a st)) (basis small (h_a st)) = Ok Sa /\ gram (bbasis small st) (basis small (h_a st)) = Ok Sb /\
        fst (fst (sygvd call Sa Sb)) = info /\ judge m small info = VRestart
    | GNext st' resid info => ginv st' /\ exists rs, gstep small call st (g_l (h_a st')) (g_x (h_a st')) rs info /\ largest resid rs /\
        fltb resid (s_tol c) && (s_miniter c <? iter + 1) = false
    | GDone o => shapes m n (lo_l o) (lo_x o) /\ lo_iter o = (iter + 1)%nat /\
        ((lo_code o = RESIDUAL_NAN /\ fnan (lo_resid o) = true) \/
         (lo_code o = SUCCESS /\ fltb (lo_resid o) (s_tol c) = true /\ (s_miniter c < iter + 1)%nat /\
          exists rs, gstep small call st (lo_l o) (lo_x o) rs (lo_info o) /\ largest (lo_resid o) rs))
    end.
Proof.
  intros Hst H small. unfold glob_pass in H. fold small in H.
  fold (basis small (h_a st)) (abasis small (h_a st)) (bbasis small st) in H.
  apply bind_ok in H. destruct H as (Sa & Ea & H). apply bind_ok in H. destruct H as (Sb & Eb & H).
  destruct (sygvd call Sa Sb) as [[info lam] V] eqn:Es.
  destruct (judge m small info) eqn:Ej; try discriminate.
  - injection H as <-. exists Sa, Sb. rewrite Es. auto.
  - apply bind_ok in H. destruct H as (((st' & rs) & bad) & Er & H).
    destruct (@glob_rows_inv small st lam V Hst m 0%nat st [] st' rs bad ltac:(lia) Hst Er) as (El & G).
    pose proof (@lob_rows_ok F SF Hex A pre m n M HA Hpre small (h_a st) lam V (proj1 Hst) m 0%nat (h_a st) [] ltac:(lia) (proj1 Hst) eq_refl
      ltac:(intros j Hj; lia)) as L. rewrite El in L. cbn [no_hang] in L. destruct L as (L1 & L2 & L3).
    destruct bad as [r|].
    + injection H as <-. cbn [lo_code lo_l lo_x lo_iter lo_resid]. split; [split; auto|]. split; auto.
    + destruct L3 as (_ & L4 & L5). apply bind_ok in H. destruct H as (resid & Em & H).
      assert (Hmax : largest resid rs).
      { destruct rs as [|r rs]; [discriminate|]. cbn [v_max] in Em. injection Em as <-. exact (v_max_ok r rs Hlt). }
      assert (Hstep : gstep small call st (g_l (h_a st')) (g_x (h_a st')) rs info) by (exists Sa, Sb, lam, V; auto 10).
      destruct (fltb resid (s_tol c) && (s_miniter c <? iter + 1)) eqn:Et; injection H as <-; cbn [lo_code lo_l lo_x lo_iter lo_resid lo_info].
      * apply andb_prop in Et. destruct Et as (T1 & T2). apply Nat.ltb_lt in T2. split; [split; auto|]. split; auto. right. eauto 10.
      * split; auto. eauto.
Qed.

Definition gfinal_ok (o : lout (F:=F)) : Prop :=
  shapes m n (lo_l o) (lo_x o) /\
  ((lo_code o = RESIDUAL_NAN /\ fnan (lo_resid o) = true /\ (1 <= lo_iter o <= s_maxiter c)%nat) \/
   (lo_code o = SUCCESS /\ fltb (lo_resid o) (s_tol c) = true /\ (s_miniter c < lo_iter o <= s_maxiter c)%nat /\
      exists small call st rs, ginv st /\ gstep small call st (lo_l o) (lo_x o) rs (lo_info o) /\ largest (lo_resid o) rs) \/
   (lo_code o = MAXITER /\ lo_iter o = s_maxiter c /\
      (s_maxiter c = 0%nat \/
       exists small call st rs, ginv st /\ gstep small call st (lo_l o) (lo_x o) rs (lo_info o) /\ largest (lo_resid o) rs))).

Definition glast_step (iter : nat) (st : glst (F:=F)) (resid : F) (info : Z) : Prop :=
  (iter < s_maxiter c)%nat \/ s_maxiter c = 0%nat \/
  exists small call st0 rs, ginv st0 /\ gstep small call st0 (g_l (h_a st)) (g_x (h_a st)) rs info /\ largest resid rs.

Lemma glob_loop_ok fuel : forall iter singular call st resid info o, (iter <= s_maxiter c)%nat -> ginv st -> glast_step iter st resid info ->
  glob_loop c A B pre sygvd m n fuel iter singular call st resid info = Ok o -> gfinal_ok o.
Proof.
  induction fuel as [|fuel IH]; intros iter singular call st resid info o Hit Hst Hl H; cbn [glob_loop] in H; [discriminate|].
  destruct (iter <? s_maxiter c) eqn:Ei.
  - apply Nat.ltb_lt in Ei. apply bind_ok in H. destruct H as (p & Ep & H).
    pose proof (@glob_pass_ok iter singular call st p Hst Ep) as Hp. cbv zeta in Hp. destruct p as [i|o'|st' resid' i].
    + eapply IH; [exact Hit|exact Hst| |exact H]. left. auto.
    + injection H as <-. destruct Hp as (S1 & S2 & S3). split; auto. rewrite S2. destruct S3 as [(C1 & C2)|(C1 & C2 & C3 & rs & C4)].
      * left. repeat split; auto; lia.
      * right; left. do 2 (split; auto). split; [lia|]. eauto 10.
    + destruct Hp as (P1 & rs & P2 & P3 & _). eapply IH; [|exact P1| |exact H]; [lia|]. right; right. eauto 10.
  - apply Nat.ltb_ge in Ei. injection H as <-. destruct Hst as ((Hw & Hx & Hp & Hll & _) & _). split.
    + split; [apply Hx|auto].
    + right; right. cbn [lo_code lo_l lo_x lo_iter lo_resid lo_info]. split; auto. split; auto.
      destruct Hl as [Hl|[Hl|Hl]]; [lia|left; auto|right; auto].
Qed.

(** the initial state *)
Lemma ginit_row_ok x X w W BX BW : length x = n -> glob_init_row A B n x = Ok (X, w, W, BX, BW) ->
  length X = n /\ length w = n /\ length W = n /\ length BX = n /\ length BW = n /\
  (forall k, (k < n)%nat -> fn X k = mv n M (fn x) k) /\ (forall k, (k < n)%nat -> fn W k = mv n M (fn w) k) /\
  (forall k, (k < n)%nat -> fn BX k = mv n N (fn x) k) /\ (forall k, (k < n)%nat -> fn BW k = mv n N (fn w) k).
Proof.
  intros Lx. destruct HA as (_ & _ & Hmv). destruct HB as (_ & _ & Hmb). unfold glob_init_row.
  destruct (Hmv x (repeat 0 n) Lx (repeat_length _ _)) as (X' & EX & LX & VX). rewrite EX. cbn [bind].
  destruct (Hmb x (repeat 0 n) Lx (repeat_length _ _)) as (BX' & EBX & LBX & VBX). rewrite EBX. cbn [bind].
  rewrite (v_dot_exact Hex _ _ Lx LX). cbn [bind]. rewrite (v_dot_exact Hex _ _ Lx LBX). cbn [bind].
  rewrite (@v_axpyz_ok F SF n _ x BX' (repeat 0 n)) by (auto; apply repeat_length). cbn [bind].
  set (w0 := zipw _ _ _). assert (Lw : length w0 = n) by (unfold w0; rewrite zipw_length; auto).
  rewrite (v_nrm2_exact Hex _ Lw). cbn [bind]. set (w' := v_scal _ w0). assert (Lw' : length w' = n) by (unfold w'; rewrite v_scal_length; auto).
  destruct (Hmv w' (repeat 0 n) Lw' (repeat_length _ _)) as (W' & EW & LW & VW). rewrite EW. cbn [bind].
  destruct (Hmb w' (repeat 0 n) Lw' (repeat_length _ _)) as (BW' & EBW & LBW & VBW). rewrite EBW. cbn [bind].
  intros H. injection H as <- <- <- <- <-. auto 12.
Qed.

Definition gstart_state (l : list F) (x : list (list F)) (init : list (list F * list F * list F * list F * list F)) : glst (F:=F) :=
  mkG (mkL (map (fun t => snd (fst (fst (fst t)))) init) x (repeat (repeat 0 n) m) (map (fun t => snd (fst (fst t))) init)
              (map (fun t => fst (fst (fst (fst t)))) init) (repeat (repeat 0 n) m) l (repeat 0 n))
         (map snd init) (map (fun t => snd (fst t)) init) (repeat (repeat 0 n) m).

Lemma zeros_images K : images n m K (repeat (repeat (0 : F) n) m) (repeat (repeat (0 : F) n) m).
Proof.
  assert (Z : shaped m n (repeat (repeat (0 : F) n) m)).
  { apply shaped_of_In; [apply repeat_length|]. intros r Hr. apply repeat_spec in Hr. subst r. apply repeat_length. }
  split; [auto|split; [auto|]]. intros i k Hi' Hk. unfold rowf.
  rewrite (nth_indep _ [] (repeat 0 n)) by (rewrite repeat_length; auto). rewrite nth_repeat by auto.
  unfold fn at 1. rewrite (@mv_ext F SF n K (fn (repeat 0 n)) (fun _ => 0)) by (intros; apply fn_repeat0).
  change (fn (repeat 0 n) k = mv n K (fun _ => 0) k). rewrite fn_repeat0.
  unfold mv. rewrite (@sum_ext F SF n _ (fun _ => 0)) by (intros; ring). now rewrite (sum_zero Hex).
Qed.

Lemma gstart_inv l x init : length l = m -> shaped m n x ->
  traverse (glob_init_row A B n) x = Ok init -> ginv (gstart_state l x init).
Proof.
  intros Hl Hx Et.
  assert (H : Forall2 (fun x (t : list F * list F * list F * list F * list F) => let '(X, w, W, BX, BW) := t in
    length X = n /\ length w = n /\ length W = n /\ length BX = n /\ length BW = n /\
    (forall k, (k < n)%nat -> fn X k = mv n M (fn x) k) /\ (forall k, (k < n)%nat -> fn W k = mv n M (fn w) k) /\
    (forall k, (k < n)%nat -> fn BX k = mv n N (fn x) k) /\ (forall k, (k < n)%nat -> fn BW k = mv n N (fn w) k)) x init).
  { assert (Hall : forall r, In r x -> length r = n) by (intros r Hr; exact (shaped_In _ Hx Hr)). clear Hx. revert init Et.
    induction x as [|r x IH]; intros init Et; cbn [traverse] in Et; [injection Et as <-; constructor|].
    apply bind_ok in Et. destruct Et as (t & E1 & Et). apply bind_ok in Et. destruct Et as (ts & E2 & Et). injection Et as <-.
    constructor; [|apply IH; auto; intros; apply Hall; right; auto]. destruct t as [[[[X w] W] BX] BW]. apply ginit_row_ok; auto. apply Hall. left; auto. }
  assert (Lin : length init = m) by (apply forall2_length in H; destruct Hx; lia).
  assert (Hi : forall i, (i < m)%nat -> let '(X, w, W, BX, BW) := nth i init ([], [], [], [], []) in
    length X = n /\ length w = n /\ length W = n /\ length BX = n /\ length BW = n /\
    (forall k, (k < n)%nat -> fn X k = mv n M (fn (nth i x [])) k) /\ (forall k, (k < n)%nat -> fn W k = mv n M (fn w) k) /\
    (forall k, (k < n)%nat -> fn BX k = mv n N (fn (nth i x [])) k) /\ (forall k, (k < n)%nat -> fn BW k = mv n N (fn w) k)).
  { clear -H Lin. subst m. induction H as [|r t x init Hr H IH]; intros i Hi; cbn in Hi; [lia|]. destruct i; cbn [nth]; auto. apply IH. lia. }
  assert (Nm : forall (f : list F * list F * list F * list F * list F -> list F) i, f ([], [], [], [], []) = [] -> nth i (map f init) [] = f (nth i init ([], [], [], [], []))).
  { intros f i Hf. rewrite <- (map_nth f). now rewrite Hf. }
  unfold ginv, LobProof.linv, gstart_state. cbn [h_a h_BW h_BX h_BP g_w g_x g_p g_W g_X g_P g_l g_tmp].
  assert (Im : forall K (f g : list F * list F * list F * list F * list F -> list F), f ([], [], [], [], []) = [] -> g ([], [], [], [], []) = [] ->
    (forall i, (i < m)%nat -> length (f (nth i init ([], [], [], [], []))) = n /\ length (g (nth i init ([], [], [], [], []))) = n /\
      forall k, (k < n)%nat -> fn (g (nth i init ([], [], [], [], []))) k = mv n K (fn (f (nth i init ([], [], [], [], [])))) k) ->
    images n m K (map f init) (map g init)).
  { intros K f g Hf Hg Hfg. split; [|split].
    - split; [now rewrite map_length|]. intros i Hi'. rewrite Nm by auto. now apply Hfg.
    - split; [now rewrite map_length|]. intros i Hi'. rewrite Nm by auto. now apply Hfg.
    - intros i k Hi' Hk. unfold rowf. rewrite !Nm by auto. now apply Hfg. }
  assert (Ix : forall K (g : list F * list F * list F * list F * list F -> list F), g ([], [], [], [], []) = [] ->
    (forall i, (i < m)%nat -> length (g (nth i init ([], [], [], [], []))) = n /\
      forall k, (k < n)%nat -> fn (g (nth i init ([], [], [], [], []))) k = mv n K (fn (nth i x [])) k) ->
    images n m K x (map g init)).
  { intros K g Hg Hfg. split; [auto|split].
    - split; [now rewrite map_length|]. intros i Hi'. rewrite Nm by auto. now apply Hfg.
    - intros i k Hi' Hk. unfold rowf. rewrite !Nm by auto. now apply Hfg. }
  split; [split; [|split; [|split; [|split]]]|split; [|split]].
  1: apply Im; auto. 2: apply Ix; auto. 3: apply zeros_images. 3: auto. 3: apply repeat_length. 3: apply Im; auto. 4: apply Ix; auto. 5: apply zeros_images.
  all: intros i Hi'; specialize (Hi i Hi'); destruct (nth i init ([], [], [], [], [])) as [[[[X w] W] BX] BW]; cbn [fst snd];
    destruct Hi as (h1 & h2 & h3 & h4 & h5 & h6 & h7 & h8 & h9); auto.
Qed.
End Gen.

Section GCalls.
Context {F : Type} {SF : Scalar F}.
Local Open Scope F_scope.
Hypothesis Hex : exact SF.
Hypothesis Hlt : lt_strict_law (F:=F).
Variables (A B : matif (F:=F)) (n : nat) (M N : nat -> nat -> F).
Hypothesis HA : represents A n M.
Hypothesis HB : represents B n N.
Variable (sygvd : sygvd_t (F:=F)).

Lemma globpcg_final fuel c s pre l xcol x itype li lr o : pre_ok A n pre -> s_lib c = 0%nat ->
  globpcg_solve fuel c s A B pre sygvd l xcol x itype li lr = Ok o ->
  exists apply, pre A = Ok apply /\
    (forall r z, length r = n -> length z = n -> exists z', apply r z = Ok z' /\ length z' = n) /\
    gfinal_ok c apply sygvd (length l) n M N o.
Proof.
  intros (apply & Ep & Ha) Hlib H. unfold globpcg_solve in H. rewrite Hlib in H. exists apply. split; auto. split; auto.
  unfold globpcg, require_, assert_ in H.
  destruct (itype =? 1)%Z; cbn [bind] in H; [|discriminate].
  destruct (mi_col A =? xcol)%nat; cbn [bind] in H; [|discriminate].
  destruct ((mi_col A =? mi_col B) && (mi_row A =? mi_row B))%nat; cbn [bind] in H; [|discriminate].
  destruct (length l =? length x)%nat eqn:E2; cbn [bind] in H; [|discriminate].
  apply Nat.eqb_eq in E2. rewrite Ep in H. cbn [bind] in H.
  assert (En : mi_col A = n) by apply HA. rewrite En in H.
  pose proof (@start_rows_ok F SF Hex (length l) n s x (eq_sym E2)) as Hs.
  destruct (start_rows n s x) as [xs| | | |]; cbn [safe bind] in *; try discriminate.
  apply bind_ok in H. destruct H as (init & Ei & H).
  pose proof (@gstart_inv F SF Hex A B (length l) n M N HA HB l xs init eq_refl Hs Ei) as Hi.
  eapply (glob_loop_ok Hex Hlt HA HB Ha); [|exact Hi| |exact H]; [lia|].
  unfold glast_step. destruct (s_maxiter c) eqn:Em; [right; left; auto|left; lia].
Qed.
End GCalls.

Section GRitz.
Context {F : Type} {SF : Scalar F}.
Local Open Scope F_scope.
Hypothesis Hex : exact SF.
Let Hrt : ring_theory f0 f1 fadd fmul fsub fopp (@eq F) := Hex.
Add Ring FringLobG2 : Hrt.
Variables (pre : list F -> list F -> res (list F)) (sygvd : sygvd_t (F:=F)).
Variables (m n : nat) (M N : nat -> nat -> F).
Hypothesis HsA : symmetric n M.
Hypothesis HsB : symmetric n N.
Hypothesis Hlap : lapack_info0 sygvd.

(** x_i is a multiple of e_i, and the e_i are B-orthonormal and diagonalize A with the values l_i *)
Definition gritz (l : list F) (X : list (list F)) (e : nat -> nat -> F) : Prop :=
  ascending l /\
  (forall i k, (i < m)%nat -> (k < n)%nat -> rowf X i k = (1 / norm2 n (e i)) * e i k) /\
  (forall i j, (i < m)%nat -> (j < m)%nat -> dotp n (e i) (mv n N (e j)) = if (i =? j)%nat then 1 else 0) /\
  (forall i j, (i < m)%nat -> (j < m)%nat -> dotp n (e i) (mv n M (e j)) = if (i =? j)%nat then fn l i else 0).

Lemma gstep_ritz small call st l X rs : ginv m n M N st -> gstep pre sygvd m n M small call st l X rs 0%Z -> length l = m ->
  exists e, gritz l X e.
Proof.
  intros Hst (Sa & Sb & lam & V & Ea & Eb & Es & _ & _ & Hd) Ll.
  destruct (basis_images small (proj1 Hst)) as (B1 & B2 & B3). destruct (bbasis_images small Hst) as (B4 & B5).
  destruct (gram_ok Hex B2 B1) as (Sa' & Ea' & Ha & Va). rewrite Ea in Ea'. injection Ea' as <-.
  destruct (gram_ok Hex B4 B1) as (Sb' & Eb' & Hb & Vb). rewrite Eb in Eb'. injection Eb' as <-.
  set (d := dim m small) in *. set (q := rowf (basis small (h_a st))) in *.
  assert (Va' : forall i j, (i < d)%nat -> (j < d)%nat -> rowf Sa i j = dotp n (mv n M (q i)) (q j)).
  { intros i j Hi Hj. rewrite Va by auto. apply dotp_ext'; [|auto]. intros k Hk. now apply B3. }
  assert (Vb' : forall i j, (i < d)%nat -> (j < d)%nat -> rowf Sb i j = dotp n (mv n N (q i)) (q j)).
  { intros i j Hi Hj. rewrite Vb by auto. apply dotp_ext'; [|auto]. intros k Hk. now apply B5. }
  assert (Dec : decomposes d Sa Sb lam V).
  { eapply Hlap; [| |exact Es|reflexivity]; (split; [assumption|]); intros i j Hi Hj.
    - rewrite !Va' by auto. rewrite (sym_swap Hex HsA). apply (dotp_comm' Hex).
    - rewrite !Vb' by auto. rewrite (sym_swap Hex HsB). apply (dotp_comm' Hex). }
  destruct Dec as (D1 & D2 & D3 & D4 & D5). pose proof (dim_ge m small) as Hdim. fold d in Hdim.
  set (e := fun i t => sum_n d (fun r => rowf V i r * q r t)).
  assert (Rz : forall i b k, coeffs m small V i = Ok b -> ritz m small (h_a st) b k = e i k).
  { intros i b k Hb'. exact (@ritz_basis F SF Hex m n M small (h_a st) V i b k (proj1 Hst) Hb'). }
  assert (Q : forall K S, (forall i j, (i < d)%nat -> (j < d)%nat -> rowf S i j = dotp n (mv n K (q i)) (q j)) -> symmetric n K ->
    forall i j, dotp n (e i) (mv n K (e j)) = quad d S (rowf V i) (rowf V j)).
  { intros K S HS HK i j. rewrite <- (sym_swap Hex HK). unfold e at 2.
    rewrite (@dotp_ext' F SF n (mv n K (e i)) (fun t => sum_n d (fun r => rowf V j r * q r t)) (fun t => sum_n d (fun r => rowf V i r * mv n K (q r) t)) (fun t => sum_n d (fun r => rowf V j r * q r t))); auto.
    - rewrite (dotp_lin Hex). unfold quad. apply sum_ext. intros r Hr. f_equal. apply sum_ext. intros s Hs. now rewrite HS.
    - intros k Hk. unfold e. rewrite (mv_sum Hex). apply sum_ext. intros r Hr. now rewrite (mv_scal Hex). }
  exists e. split; [|split; [|split]].
  - intros i j Hij. rewrite Ll in Hij.
    destruct (Hd i) as (_ & _ & E1 & _); [lia|]. destruct (Hd j) as (_ & _ & E2 & _); [lia|]. rewrite E1, E2. apply D3. lia.
  - intros i k Hi Hk. destruct (Hd i Hi) as (_ & _ & _ & b & Hb' & E). rewrite E by auto. rewrite (Rz i b k Hb').
    rewrite (@norm2_ext F SF n (ritz m small (h_a st) b) (e i)); auto.
  - intros i j Hi Hj. rewrite (Q N Sb Vb' HsB). apply D4; lia.
  - intros i j Hi Hj. rewrite (Q M Sa Va' HsA).
    transitivity (fn lam j * quad d Sb (rowf V i) (rowf V j)).
    + unfold quad. rewrite <- (sum_scal Hex). apply sum_ext. intros r Hr.
      transitivity (rowf V i r * (fn lam j * mv d (rowf Sb) (rowf V j) r)).
      * f_equal. exact (D5 j r ltac:(lia) Hr).
      * unfold mv. ring.
    + rewrite D4 by lia. destruct (Hd j Hj) as (_ & _ & E2 & _). rewrite <- E2.
      destruct (Nat.eqb_spec i j) as [ -> |]; ring.
Qed.
End GRitz.
