(** * LobProof2: a whole LOBPCG run (proof support for C73-C76). *)
From Coq Require Import Ring.
From Verif Require Import Base Scalar Spec SumFacts SolverModel SolverSpec SolverProof LobModel LobSpec LobProof.
Set Implicit Arguments.

Lemma traverse_map {X Y} (f : X -> res Y) (g : X -> Y) l : (forall x, In x l -> f x = Ok (g x)) -> traverse f l = Ok (map g l).
Proof.
  induction l as [|x l IH]; intros H; cbn; auto. rewrite H by (left; auto). cbn. rewrite IH by (intros; apply H; right; auto). reflexivity.
Qed.
Lemma traverse_inv {X Y} (f : X -> res Y) l r : traverse f l = Ok r -> Forall2 (fun x y => f x = Ok y) l r.
Proof.
  revert r; induction l as [|x l IH]; intros r; cbn; intros H.
  - injection H as <-. constructor.
  - apply bind_ok in H. destruct H as (b & Eb & H). apply bind_ok in H. destruct H as (bs & Ebs & H). injection H as <-.
    constructor; auto.
Qed.

(** nothing but an endless run is excluded *)
Definition safe {T} (x : res T) (P : T -> Prop) : Prop := match x with Ok a => P a | NoFuel => False | _ => True end.
Lemma safe_bind {S T} (x : res S) (f : S -> res T) P : safe x (fun a => safe (f a) P) -> safe (bind x f) P.
Proof. destruct x; cbn; auto. Qed.
Lemma no_hang_safe B {T} (x : res T) P : no_hang B x P -> safe x P.
Proof. destruct x; cbn; auto. Qed.
Lemma safe_imp {T} (x : res T) (P Q : T -> Prop) : safe x P -> (forall a, P a -> Q a) -> safe x Q.
Proof. destruct x; cbn; auto. Qed.
Lemma traverse_safe {X Y} (f : X -> res Y) (P : X -> Y -> Prop) l : (forall x, In x l -> safe (f x) (P x)) ->
  safe (traverse f l) (Forall2 P l).
Proof.
  induction l as [|x l IH]; intros H; cbn; auto.
  apply safe_bind. assert (Hx : safe (f x) (P x)) by (apply H; left; auto). destruct (f x) as [y| | | |]; cbn in *; auto.
  apply safe_bind. assert (Hl : safe (traverse f l) (Forall2 P l)) by (apply IH; intros; apply H; right; auto).
  destruct (traverse f l); cbn in *; auto.
Qed.

Lemma forall2_length {X Y} (P : X -> Y -> Prop) a b : Forall2 P a b -> length a = length b.
Proof. induction 1; cbn; auto. Qed.
Lemma nth_map_lt {X Y} (f : X -> Y) l i dy dx : i < length l -> nth i (map f l) dy = f (nth i l dx).
Proof. intros H. rewrite nth_indep with (d' := f dx) by (now rewrite map_length). apply map_nth. Qed.

Section Run.
Context {F : Type} {SF : Scalar F}.
Local Open Scope F_scope.
Hypothesis Hex : exact SF.
Let Hrt : ring_theory f0 f1 fadd fmul fsub fopp (@eq F) := Hex.
Add Ring FringLob3 : Hrt.

Lemma shaped_In k n (X : list (list F)) r : shaped k n X -> In r X -> length r = n.
Proof. intros (H1 & H2) Hr. destruct (In_nth X r [] Hr) as (i & Hi & <-). apply H2. lia. Qed.
Lemma shaped_of_In k n (X : list (list F)) : length X = k -> (forall r, In r X -> length r = n) -> shaped k n X.
Proof. intros H1 H2. split; auto. intros i Hi. apply H2, nth_In. lia. Qed.
Lemma shaped_app a b n (X Y : list (list F)) : shaped a n X -> shaped b n Y -> shaped (a + b) n (X ++ Y).
Proof.
  intros HX HY. apply shaped_of_In; [rewrite app_length; destruct HX, HY; lia|].
  intros r Hr. apply in_app_or in Hr. destruct Hr as [Hr|Hr]; [exact (shaped_In _ HX Hr)|exact (shaped_In _ HY Hr)].
Qed.
Lemma rowf_app1 (X Y : list (list F)) i : (i < length X)%nat -> rowf (X ++ Y) i = rowf X i.
Proof. intros H. unfold rowf. now rewrite app_nth1. Qed.
Lemma rowf_app2 (X Y : list (list F)) i : rowf (X ++ Y) (length X + i) = rowf Y i.
Proof. unfold rowf. rewrite app_nth2 by lia. f_equal. f_equal. lia. Qed.

Lemma rowf_app2' (X Y : list (list F)) a i : length X = a -> rowf (X ++ Y) (a + i) = rowf Y i.
Proof. intros <-. apply rowf_app2. Qed.

Lemma gram_ok a b n (R Q : list (list F)) : shaped a n R -> shaped b n Q ->
  exists S, gram R Q = Ok S /\ shaped a b S /\ forall i j, (i < a)%nat -> (j < b)%nat -> rowf S i j = dotp n (rowf R i) (rowf Q j).
Proof.
  intros HR HQ. exists (map (fun r => map (fun q => dotp n (fn r) (fn q)) Q) R). split; [|split].
  - unfold gram. apply traverse_map. intros r Hr. apply traverse_map. intros q Hq.
    apply (v_dot_exact Hex); [exact (shaped_In _ HR Hr)|exact (shaped_In _ HQ Hq)].
  - apply shaped_of_In; [rewrite map_length; apply HR|]. intros r Hr. apply in_map_iff in Hr. destruct Hr as (r' & <- & _).
    rewrite map_length. apply HQ.
  - intros i j Hi Hj. destruct HR as (R1 & R2), HQ as (Q1 & Q2). unfold rowf.
    rewrite (@nth_map_lt _ _ _ R i [] []) by lia. unfold fn at 1. rewrite (@nth_map_lt _ _ _ Q j 0 []) by lia. reflexivity.
Qed.

Lemma v_max_ok (r : F) rs : lt_strict_law (F:=F) -> largest (fold_left (fun m v => if fltb m v then v else m) rs r) (r :: rs).
Proof.
  intros (Hir & Htr & Has). revert r. induction rs as [|s rs IH]; intros r; cbn [fold_left].
  - split; [left; auto|]. intros s [<-|[]]. apply Hir.
  - destruct (IH (if fltb r s then s else r)) as (H1 & H2). destruct (fltb r s) eqn:E; split.
    + right. exact H1.
    + intros t [<-|Ht]; [|apply H2, Ht]. eapply Htr; [apply H2; left; reflexivity|]. now apply Has.
    + destruct H1 as [H1|H1]; [left|right; right]; auto.
    + intros t [<-|[<-|Ht]]; [apply H2; left; auto| |apply H2; right; auto].
      eapply Htr; [apply H2; left; reflexivity|exact E].
Qed.

Variables (c : cfg (F:=F)) (A : matif (F:=F)) (pre : list F -> list F -> res (list F)) (sygvd : sygvd_t (F:=F)).
Variables (m n : nat) (M : nat -> nat -> F).
Hypothesis HA : represents A n M.
Hypothesis Hpre : forall r z, length r = n -> length z = n -> exists z', pre r z = Ok z' /\ length z' = n.
Hypothesis Hlt : lt_strict_law (F:=F).
Local Notation linv := (linv m n M).

Definition basis (small : bool) (st : lst (F:=F)) := if small then g_w st ++ g_x st else g_w st ++ g_x st ++ g_p st.
Definition abasis (small : bool) (st : lst (F:=F)) := if small then g_W st ++ g_X st else g_W st ++ g_X st ++ g_P st.
Definition dim (small : bool) : nat := if small then (2 * m)%nat else (3 * m)%nat.

Lemma basis_images small st : linv st ->
  shaped (dim small) n (basis small st) /\ shaped (dim small) n (abasis small st) /\
  forall i k, (i < dim small)%nat -> (k < n)%nat -> rowf (abasis small st) i k = mv n M (rowf (basis small st) i) k.
Proof.
  intros ((w1 & w2 & w3) & (x1 & x2 & x3) & (p1 & p2 & p3) & _). unfold dim, basis, abasis.
  replace (2 * m)%nat with (m + m)%nat by lia. replace (3 * m)%nat with (m + (m + m))%nat by lia.
  destruct small.
  - split; [apply shaped_app; auto|]. split; [apply shaped_app; auto|]. intros i k Hi Hk.
    destruct (Nat.lt_ge_cases i m) as [H|H].
    + rewrite !rowf_app1 by (destruct w1, w2; lia). auto.
    + assert (Ei : i = (m + (i - m))%nat) by lia. rewrite Ei.
      destruct w1 as (wl & _), w2 as (Wl & _). rewrite !(@rowf_app2' _ _ m) by auto. apply x3; lia.
  - split; [repeat apply shaped_app; auto|]. split; [repeat apply shaped_app; auto|]. intros i k Hi Hk.
    destruct (Nat.lt_ge_cases i m) as [H|H].
    + rewrite !rowf_app1 by (destruct w1, w2; lia). auto.
    + assert (Ei : i = (m + (i - m))%nat) by lia. rewrite Ei. set (i' := (i - m)%nat) in *.
      destruct w1 as (wl & _), w2 as (Wl & _). rewrite !(@rowf_app2' _ _ m) by auto.
      destruct (Nat.lt_ge_cases i' m) as [H'|H'].
      * rewrite !rowf_app1 by (destruct x1, x2; lia). auto.
      * assert (Ei' : i' = (m + (i' - m))%nat) by lia. rewrite Ei'.
        destruct x1 as (xl & _), x2 as (Xl & _). rewrite !(@rowf_app2' _ _ m) by auto. apply p3; lia.
Qed.

(** one accepted pass *)
Definition step (small : bool) (call : nat) (st : lst (F:=F)) (l : list F) (X : list (list F)) (rs : list F) (info : Z) : Prop :=
  exists Sa Sb lam V, gram (abasis small st) (basis small st) = Ok Sa /\ gram (basis small st) (basis small st) = Ok Sb /\
    sygvd call Sa Sb = (info, lam, V) /\ judge m small info = VUse /\ length rs = m /\
    forall j, (j < m)%nat -> row_done pre m n M small st lam V l X j (fn rs j).

Definition shapes (l : list F) (X : list (list F)) : Prop := shaped m n X /\ length l = m.

Lemma lob_pass_ok iter singular call st : linv st ->
  safe (lob_pass c A pre sygvd m n iter singular call st) (fun p =>
    let small := (iter =? 0)%nat || singular in
    match p with
    | Restart info => exists Sa Sb, shaped (dim small) (dim small) Sa /\ shaped (dim small) (dim small) Sb /\
        fst (fst (sygvd call Sa Sb)) = info /\ judge m small info = VRestart
    | Next st' resid info => linv st' /\ exists rs, step small call st (g_l st') (g_x st') rs info /\ largest resid rs /\
        fltb resid (s_tol c) && (s_miniter c <? iter + 1) = false
    | Done o => shapes (lo_l o) (lo_x o) /\ lo_iter o = (iter + 1)%nat /\
        ((lo_code o = RESIDUAL_NAN /\ fnan (lo_resid o) = true) \/
         (lo_code o = SUCCESS /\ fltb (lo_resid o) (s_tol c) = true /\ (s_miniter c < iter + 1)%nat /\
          exists rs, step small call st (lo_l o) (lo_x o) rs (lo_info o) /\ largest (lo_resid o) rs))
    end).
Proof.
  intros Hst. unfold lob_pass. set (small := ((iter =? 0)%nat || singular)).
  fold (basis small st) (abasis small st).
  destruct (basis_images small Hst) as (B1 & B2 & B3).
  destruct (gram_ok B2 B1) as (Sa & Ea & Ha & _). destruct (gram_ok B1 B1) as (Sb & Eb & Hb & _).
  rewrite Ea. cbn [bind]. rewrite Eb. cbn [bind].
  destruct (sygvd call Sa Sb) as [[info lam] V] eqn:Es.
  destruct (judge m small info) eqn:Ej; cbn [safe]; auto.
  - exists Sa, Sb. rewrite Es. cbn. auto.
  - apply safe_bind. apply safe_imp with (P := fun '(st', rs, bad) =>
      shaped m n (g_x st') /\ length (g_l st') = m /\
      match bad with
      | Some r => fnan r = true
      | None => linv st' /\ length rs = m /\ forall j, (j < m)%nat -> row_done pre m n M small st lam V (g_l st') (g_x st') j (fn rs j)
      end).
    + eapply no_hang_safe. apply (lob_rows_ok Hex HA Hpre); auto. intros j Hj. lia.
    + intros [[st' rs] [r|]] (H1 & H2 & H3).
      * cbn [safe lo_code lo_l lo_x lo_iter lo_resid]. split; [split; auto|]. split; auto.
      * destruct H3 as (H3 & H4 & H5). destruct rs as [|r rs]; [cbn; auto|]. cbn [v_max bind].
        pose proof (v_max_ok r rs Hlt) as Hmax. set (resid := fold_left _ rs r) in *.
        assert (Hstep : step small call st (g_l st') (g_x st') (r :: rs) info) by (exists Sa, Sb, lam, V; auto 10).
        destruct (fltb resid (s_tol c) && (s_miniter c <? iter + 1)) eqn:Et; cbn [safe lo_code lo_l lo_x lo_iter lo_resid lo_info].
        { apply andb_prop in Et. destruct Et as (T1 & T2). apply Nat.ltb_lt in T2. split; [split; auto|]. split; auto. right. eauto 10. }
        { split; auto. eauto. }
Qed.

(** what the caller can rely on, whatever ?sygvd returned *)
Definition final_ok (o : lout (F:=F)) : Prop :=
  shapes (lo_l o) (lo_x o) /\
  ((lo_code o = RESIDUAL_NAN /\ fnan (lo_resid o) = true /\ (1 <= lo_iter o <= s_maxiter c)%nat) \/
   (lo_code o = SUCCESS /\ fltb (lo_resid o) (s_tol c) = true /\ (s_miniter c < lo_iter o <= s_maxiter c)%nat /\
      exists small call st rs, linv st /\ step small call st (lo_l o) (lo_x o) rs (lo_info o) /\ largest (lo_resid o) rs) \/
   (lo_code o = MAXITER /\ lo_iter o = s_maxiter c /\
      (s_maxiter c = 0%nat \/
       exists small call st rs, linv st /\ step small call st (lo_l o) (lo_x o) rs (lo_info o) /\ largest (lo_resid o) rs))).

Definition last_step (iter : nat) (st : lst (F:=F)) (resid : F) (info : Z) : Prop :=
  (iter < s_maxiter c)%nat \/ s_maxiter c = 0%nat \/
  exists small call st0 rs, linv st0 /\ step small call st0 (g_l st) (g_x st) rs info /\ largest resid rs.

Lemma lob_loop_ok fuel : forall iter singular call st resid info o, (iter <= s_maxiter c)%nat -> linv st -> last_step iter st resid info ->
  lob_loop c A pre sygvd m n fuel iter singular call st resid info = Ok o -> final_ok o.
Proof.
  induction fuel as [|fuel IH]; intros iter singular call st resid info o Hit Hst Hl H; cbn [lob_loop] in H; [discriminate|].
  destruct (iter <? s_maxiter c) eqn:Ei.
  - apply Nat.ltb_lt in Ei. apply bind_ok in H. destruct H as (p & Ep & H).
    pose proof (lob_pass_ok iter singular call Hst) as Hp. rewrite Ep in Hp. cbn [safe] in Hp. destruct p as [i|o'|st' resid' i].
    + eapply IH; [exact Hit|exact Hst| |exact H]. left. auto.
    + injection H as <-. destruct Hp as (S1 & S2 & S3). split; auto. rewrite S2.
      destruct S3 as [(h1 & h2)|(h1 & h2 & h3 & rs & h4)]; [left; repeat split; auto; lia|]. right; left. split; [auto|]. split; [auto|].
      split; [lia|]. eauto 10.
    + destruct Hp as (S1 & rs & S2 & S3 & _). eapply IH; [|exact S1| |exact H]; [lia|].
      right; right. eauto 10.
  - apply Nat.ltb_ge in Ei. injection H as <-. split; cbn.
    + destruct Hst as (_ & (h1 & _) & _ & h2 & _). split; auto.
    + right; right. split; auto. split; auto. destruct Hl as [Hl|[Hl|Hl]]; auto. lia.
Qed.

(** the run ends if no 2m x 2m problem is reported singular *)
Lemma lob_loop_ends : (forall call Sa Sb, shaped (2 * m) (2 * m) Sa -> shaped (2 * m) (2 * m) Sb ->
    judge m true (fst (fst (sygvd call Sa Sb))) <> VRestart) ->
  forall (fuel iter : nat) (singular : bool) call st resid info, linv st -> (iter <= s_maxiter c)%nat ->
    (2 * (s_maxiter c - iter) + (if singular then 0 else 1) <= fuel)%nat -> (singular = true -> (iter < s_maxiter c)%nat) ->
    lob_loop c A pre sygvd m n fuel iter singular call st resid info <> NoFuel.
Proof.
  intros Hns. induction fuel as [|fuel IH]; intros iter singular call st resid info Hst Hit Hf Hs.
  - destruct singular; [specialize (Hs eq_refl)|]; lia.
  - cbn [lob_loop]. destruct (iter <? s_maxiter c) eqn:Ei; [|discriminate]. apply Nat.ltb_lt in Ei.
    pose proof (lob_pass_ok iter singular call Hst) as Hp.
    destruct (lob_pass c A pre sygvd m n iter singular call st) as [p| | | |] eqn:Ep; cbn [bind]; try discriminate; [|destruct Hp].
    cbn [safe] in Hp. destruct p as [i|o'|st' resid' i]; [|discriminate|].
    + destruct Hp as (Sa & Sb & H1 & H2 & H3 & H4). destruct ((iter =? 0)%nat || singular) eqn:Esm.
      * exfalso. apply (Hns call Sa Sb H1 H2). rewrite H3. exact H4.
      * apply orb_false_iff in Esm. destruct Esm as (_ & ->). apply IH; auto; lia.
    + destruct Hp as (H1 & _). apply IH; auto; destruct singular; lia.
Qed.

Lemma lob_loop_fuel fuel : forall (iter : nat) (singular : bool) (call : nat) (st : lst (F:=F)) (resid : F) (info : Z) (o : lout (F:=F)),
  lob_loop c A pre sygvd m n fuel iter singular call st resid info = Ok o ->
  forall d, lob_loop c A pre sygvd m n (fuel + d) iter singular call st resid info = Ok o.
Proof.
  induction fuel as [|fuel IH]; intros iter singular call st resid info o H d; [discriminate|]. cbn [lob_loop Nat.add] in *.
  destruct (iter <? s_maxiter c); auto. apply bind_ok in H. destruct H as (p & Ep & H). rewrite Ep. cbn [bind].
  destruct p; auto.
Qed.

(** the initial state *)
Lemma init_row_ok x : length x = n -> exists X w W, lob_init_row A n x = Ok (X, w, W) /\
  length X = n /\ length w = n /\ length W = n /\
  (forall k, (k < n)%nat -> fn X k = mv n M (fn x) k) /\ (forall k, (k < n)%nat -> fn W k = mv n M (fn w) k).
Proof.
  intros Lx. destruct HA as (_ & _ & Hmv). unfold lob_init_row.
  destruct (Hmv x (repeat 0 n) Lx (repeat_length _ _)) as (X & EX & LX & VX). rewrite EX. cbn [bind].
  rewrite (v_dot_exact Hex _ _ Lx LX). cbn [bind].
  rewrite (@v_axpyz_ok F SF n _ x X (repeat 0 n)) by (auto; apply repeat_length). cbn [bind].
  set (w := zipw _ _ _). assert (Lw : length w = n) by (unfold w; rewrite zipw_length; auto).
  rewrite (v_nrm2_exact Hex _ Lw). cbn [bind]. set (w' := v_scal _ w). assert (Lw' : length w' = n) by (unfold w'; rewrite v_scal_length; auto).
  destruct (Hmv w' (repeat 0 n) Lw' (repeat_length _ _)) as (W & EW & LW & VW). rewrite EW. cbn [bind]. eauto 12.
Qed.

Lemma start_rows_ok s x : length x = m ->
  safe (start_rows n s x) (fun xs => shaped m n xs).
Proof.
  intros Hm. destruct s as [rnd|]; cbn [start_rows].
  - apply safe_imp with (P := Forall2 (fun (_ : nat) y => length y = n) (seq 0 (length x))).
    + apply traverse_safe. intros i _. unfold v_copy, assert_. destruct (leneq (rnd i) (repeat 0 n)) eqn:E; cbn [bind safe]; auto.
      unfold leneq in E. apply Nat.eqb_eq in E. rewrite repeat_length in E. rewrite (v_nrm2_exact Hex _ E). cbn [bind safe].
      now rewrite v_scal_length.
    + intros xs H. apply shaped_of_In.
      * apply forall2_length in H. rewrite seq_length in H. lia.
      * intros r Hr. clear -H Hr. induction H; [destruct Hr|]. destruct Hr as [<-|]; auto.
  - apply safe_imp with (P := Forall2 (fun (_ : list F) y => length y = n) x).
    + apply traverse_safe. intros i _. unfold v_copy, assert_. destruct (leneq i (repeat 0 n)) eqn:E; cbn [bind safe]; auto.
      unfold leneq in E. apply Nat.eqb_eq in E. now rewrite repeat_length in E.
    + intros xs H. apply shaped_of_In.
      * apply forall2_length in H. lia.
      * intros r Hr. clear -H Hr. induction H; [destruct Hr|]. destruct Hr as [<-|]; auto.
Qed.

Definition start_state (l : list F) (x : list (list F)) (init : list (list F * list F * list F)) : lst (F:=F) :=
  mkL (map (fun t => snd (fst t)) init) x (repeat (repeat 0 n) m) (map snd init) (map (fun t => fst (fst t)) init) (repeat (repeat 0 n) m) l (repeat 0 n).

Lemma start_inv l x : length l = m -> shaped m n x ->
  exists init, traverse (lob_init_row A n) x = Ok init /\ linv (start_state l x init).
Proof.
  intros Hl Hx.
  assert (H : exists init, traverse (lob_init_row A n) x = Ok init /\ Forall2 (fun x t => length (fst (fst t)) = n /\ length (snd (fst t)) = n /\ length (snd t) = n /\
    (forall k, (k < n)%nat -> fn (fst (fst t)) k = mv n M (fn x) k) /\ (forall k, (k < n)%nat -> fn (snd t) k = mv n M (fn (snd (fst t))) k)) x init).
  { assert (Hall : forall r, In r x -> length r = n) by (intros r Hr; exact (shaped_In _ Hx Hr)). clear Hx. induction x as [|r x IH]; [exists []; split; [reflexivity|constructor]|].
    destruct (@init_row_ok r) as (X & w & W & E & L1 & L2 & L3 & V1 & V2); [apply Hall; left; auto|].
    destruct IH as (init & E' & H'); [intros; apply Hall; right; auto|]. exists ((X, w, W) :: init). cbn [traverse]. rewrite E. cbn [bind]. rewrite E'. cbn [bind].
    split; [reflexivity|]. constructor; [cbn; auto|exact H']. }
  destruct H as (init & E & H). exists init. split; auto.
  assert (Lin : length init = m) by (apply forall2_length in H; destruct Hx; lia).
  assert (Hi : forall i, (i < m)%nat -> let t := nth i init ([], [], []) in length (fst (fst t)) = n /\ length (snd (fst t)) = n /\ length (snd t) = n /\
    (forall k, (k < n)%nat -> fn (fst (fst t)) k = mv n M (fn (nth i x [])) k) /\ (forall k, (k < n)%nat -> fn (snd t) k = mv n M (fn (snd (fst t))) k)).
  { clear -H Lin. subst m. induction H as [|r t x init Hr H IH]; intros i Hi; cbn in Hi; [lia|]. destruct i; cbn [nth]; auto. apply IH. lia. }
  assert (N1 : forall i, nth i (map (fun t : list F * list F * list F => snd (fst t)) init) [] = snd (fst (nth i init ([], [], [])))) by (intros i; rewrite <- (map_nth (fun t : list F * list F * list F => snd (fst t))); reflexivity).
  assert (N2 : forall i, nth i (map (fun t : list F * list F * list F => fst (fst t)) init) [] = fst (fst (nth i init ([], [], [])))) by (intros i; rewrite <- (map_nth (fun t : list F * list F * list F => fst (fst t))); reflexivity).
  assert (N3 : forall i, nth i (map (fun t : list F * list F * list F => snd t) init) [] = snd (nth i init ([], [], []))) by (intros i; rewrite <- (map_nth (fun t : list F * list F * list F => snd t)); reflexivity).
  assert (Z : shaped m n (repeat (repeat (0 : F) n) m)).
  { apply shaped_of_In; [apply repeat_length|]. intros r Hr. apply repeat_spec in Hr. subst r. apply repeat_length. }
  unfold LobProof.linv, start_state. cbn [g_w g_x g_p g_W g_X g_P g_l g_tmp]. split; [|split; [|split; [|split]]].
  - split; [|split].
    + split; [now rewrite map_length|]. intros i Hi'. rewrite N1. apply (Hi i Hi').
    + split; [now rewrite map_length|]. intros i Hi'. rewrite N3. apply (Hi i Hi').
    + intros i k Hi' Hk. unfold rowf. rewrite N1, N3. now apply (Hi i Hi').
  - split; [auto|split].
    + split; [now rewrite map_length|]. intros i Hi'. rewrite N2. apply (Hi i Hi').
    + intros i k Hi' Hk. unfold rowf. rewrite N2. now apply (Hi i Hi').
  - split; [auto|split; [auto|]]. intros i k Hi' Hk. unfold rowf.
    rewrite (nth_indep _ [] (repeat 0 n)) by (rewrite repeat_length; auto). rewrite nth_repeat by auto.
    unfold fn at 1. rewrite (@mv_ext F SF n M (fn (repeat 0 n)) (fun _ => 0)) by (intros; apply fn_repeat0).
    change (fn (repeat 0 n) k = mv n M (fun _ => 0) k). rewrite fn_repeat0.
    unfold mv. rewrite (@sum_ext F SF n _ (fun _ => 0)) by (intros; ring). now rewrite (sum_zero Hex).
  - auto.
  - apply repeat_length.
Qed.
End Run.
