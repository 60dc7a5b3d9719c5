(** * LobProof: LOBPCG keeps X = A x, P = A p, W = A w (proof support for C73-C76). *)
From Coq Require Import Ring.
From Verif Require Import Base Scalar Spec SumFacts SolverModel SolverSpec SolverProof LobModel LobSpec.
Set Implicit Arguments.

Section Combine.
Context {F : Type} {SF : Scalar F}.
Local Open Scope F_scope.
Hypothesis Hex : exact SF.
Let Hrt : ring_theory f0 f1 fadd fmul fsub fopp (@eq F) := Hex.
Add Ring FringLob : Hrt.

Lemma fn_repeat0 n k : fn (repeat (0 : F) n) k = 0.
Proof. unfold fn. revert k; induction n as [|n IH]; intros [|k]; cbn; auto. Qed.

Lemma combine_ok m n (b : list F) ws xs ps :
  length b = (3 * m)%nat -> shaped m n ws -> shaped m n xs -> shaped m n ps ->
  exists p x, combine m n b ws xs ps = Ok (p, x) /\ length p = n /\ length x = n /\
    (forall k, (k < n)%nat -> fn p k = sum_n m (fun j => fn b j * rowf ws j k + fn b (2 * m + j)%nat * rowf ps j k)) /\
    (forall k, (k < n)%nat -> fn x k = sum_n m (fun j => fn b j * rowf ws j k + fn b (2 * m + j)%nat * rowf ps j k + fn b (m + j)%nat * rowf xs j k)).
Proof.
  intros Hb (W1 & W2) (X1 & X2) (P1 & P2). unfold combine.
  match goal with |- context [for_ 0 m ?body ?s0] => set (BODY := body); set (S0 := s0) end.
  destruct (@for0_inv (list F * list F) (fun j px => length (fst px) = n /\ length (snd px) = n /\
    (forall k, (k < n)%nat -> fn (fst px) k = sum_n j (fun j => fn b j * rowf ws j k + fn b (2 * m + j)%nat * rowf ps j k)) /\
    (forall k, (k < n)%nat -> fn (snd px) k = sum_n j (fun j => fn b j * rowf ws j k + fn b (2 * m + j)%nat * rowf ps j k + fn b (m + j)%nat * rowf xs j k)))
    m BODY S0) as ((p & x) & E & H1 & H2 & H3 & H4).
  - unfold S0; cbn [fst snd]. rewrite repeat_length. repeat split; auto; intros; apply fn_repeat0.
  - intros j (p & x) Hj (L1 & L2 & E1 & E2). cbn [fst snd] in *. unfold BODY.
    rewrite (rd_lt b 0) by lia. cbn [bind]. rewrite (rd_lt b 0) by lia. cbn [bind]. rewrite (rd_lt b 0) by lia. cbn [bind].
    rewrite (rd_lt ws []) by lia. cbn [bind]. rewrite (rd_lt ps []) by lia. cbn [bind]. rewrite (rd_lt xs []) by lia. cbn [bind].
    rewrite (@v_axpy_ok F SF n) by auto. cbn [bind].
    rewrite (@v_axpy_ok F SF n); [|auto|rewrite zipw_length; auto]. cbn [bind].
    rewrite (@v_axpy_ok F SF n) by auto. cbn [bind].
    rewrite (@v_axpy_ok F SF n); [|auto|rewrite zipw_length; auto]. cbn [bind].
    rewrite (@v_axpy_ok F SF n); [|auto|rewrite zipw_length; auto]. cbn [bind].
    eexists; split; [reflexivity|]. cbn [fst snd]. rewrite !zipw_length.
    split; auto. split; auto. split.
    + intros k Hk. rewrite zipw_fn by (rewrite P2; lia). rewrite zipw_fn by (rewrite W2; lia). rewrite E1 by auto.
      cbn [sum_n]. unfold rowf, fn. ring.
    + intros k Hk. rewrite zipw_fn by (rewrite X2; lia). rewrite zipw_fn by (rewrite P2; lia). rewrite zipw_fn by (rewrite W2; lia).
      rewrite E2 by auto. cbn [sum_n]. unfold rowf, fn. ring.
  - cbn [fst snd] in *. exists p, x. auto.
Qed.

Lemma v_scal_length a (x : list F) : length (v_scal a x) = length x.
Proof. apply map_length. Qed.
Lemma v_scal_fn a (x : list F) k : (k < length x)%nat -> fn (v_scal a x) k = a * fn x k.
Proof.
  intros H. unfold fn, v_scal. rewrite nth_indep with (d' := a * 0) by (rewrite map_length; auto).
  now rewrite (map_nth (fun v => a * v)).
Qed.

Lemma mv_scal n M a (x : nat -> F) i : mv n M (fun j => a * x j) i = a * mv n M x i.
Proof. unfold mv. rewrite <- (sum_scal Hex). apply sum_ext. intros; ring. Qed.
Lemma mv_ext n M (x y : nat -> F) i : (forall j, (j < n)%nat -> x j = y j) -> mv n M x i = mv n M y i.
Proof. intros H. unfold mv. apply sum_ext. intros j Hj. now rewrite H. Qed.
Lemma mv_sum n M k (f : nat -> nat -> F) i : mv n M (fun j => sum_n k (fun s => f s j)) i = sum_n k (fun s => mv n M (f s) i).
Proof.
  unfold mv. rewrite (sum_swap Hex). apply sum_ext. intros j Hj. now rewrite (sum_scal Hex).
Qed.
Lemma mv_add n M (x y : nat -> F) i : mv n M (fun j => x j + y j) i = mv n M x i + mv n M y i.
Proof. unfold mv. rewrite <- (sum_add Hex). apply sum_ext. intros; ring. Qed.

Variables (n m : nat) (M : nat -> nat -> F).

(** the rows of Ws are A times the rows of ws *)
Definition images (ws Ws : list (list F)) : Prop :=
  shaped m n ws /\ shaped m n Ws /\ forall i k, (i < m)%nat -> (k < n)%nat -> rowf Ws i k = mv n M (rowf ws i) k.

Lemma shaped_upd (X : list (list F)) i v : shaped m n X -> length v = n -> shaped m n (upd X i v).
Proof.
  intros (H1 & H2) Hv. split; [now rewrite upd_length|]. intros j Hj. rewrite nth_upd.
  destruct ((i =? j)%nat && (i <? length X)); auto.
Qed.
Lemma rowf_upd_same (X : list (list F)) i v : (i < length X)%nat -> rowf (upd X i v) i = fn v.
Proof. intros H. unfold rowf. now rewrite nth_upd_same. Qed.
Lemma rowf_upd_other (X : list (list F)) i j v : i <> j -> rowf (upd X i v) j = rowf X j.
Proof. intros H. unfold rowf. now rewrite nth_upd_other. Qed.

Lemma images_upd ws Ws i w W : images ws Ws -> length w = n -> length W = n ->
  (forall k, (k < n)%nat -> fn W k = mv n M (fn w) k) -> images (upd ws i w) (upd Ws i W).
Proof.
  intros (H1 & H2 & H3) Lw LW E. split; [now apply shaped_upd|]. split; [now apply shaped_upd|].
  intros j k Hj Hk. destruct (Nat.eq_dec i j) as [<-|Hne].
  - rewrite !rowf_upd_same by (destruct H1, H2; lia). auto.
  - rewrite !rowf_upd_other by auto. auto.
Qed.

Lemma combine_images b ws xs ps Ws Xs Ps : length b = (3 * m)%nat ->
  images ws Ws -> images xs Xs -> images ps Ps ->
  exists p x P X, combine m n b ws xs ps = Ok (p, x) /\ combine m n b Ws Xs Ps = Ok (P, X) /\
    length p = n /\ length x = n /\ length P = n /\ length X = n /\
    (forall k, (k < n)%nat -> fn P k = mv n M (fn p) k) /\
    (forall k, (k < n)%nat -> fn X k = mv n M (fn x) k) /\
    (forall k, (k < n)%nat -> fn x k = sum_n m (fun j => fn b j * rowf ws j k + fn b (2 * m + j)%nat * rowf ps j k + fn b (m + j)%nat * rowf xs j k)).
Proof.
  intros Hb (w1 & w2 & w3) (x1 & x2 & x3) (p1 & p2 & p3).
  destruct (@combine_ok m n b ws xs ps Hb w1 x1 p1) as (p & x & E & L1 & L2 & E1 & E2).
  destruct (@combine_ok m n b Ws Xs Ps Hb w2 x2 p2) as (P & X & E' & L3 & L4 & E3 & E4).
  exists p, x, P, X. do 6 (split; auto). split; [|split; auto].
  - intros k Hk. rewrite E3 by auto. rewrite (@mv_ext n M _ _ k E1). rewrite mv_sum. apply sum_ext. intros j Hj.
    rewrite mv_add, !mv_scal. rewrite w3, p3 by auto. reflexivity.
  - intros k Hk. rewrite E4 by auto. rewrite (@mv_ext n M _ _ k E2). rewrite mv_sum. apply sum_ext. intros j Hj.
    rewrite !mv_add, !mv_scal. rewrite w3, p3, x3 by auto. reflexivity.
Qed.

End Combine.

Section Loop.
Context {F : Type} {SF : Scalar F}.
Local Open Scope F_scope.
Hypothesis Hex : exact SF.
Let Hrt : ring_theory f0 f1 fadd fmul fsub fopp (@eq F) := Hex.
Add Ring FringLob2 : Hrt.
Variables (c : cfg (F:=F)) (A : matif (F:=F)) (pre : list F -> list F -> res (list F)) (sygvd : sygvd_t (F:=F)).
Variables (m n : nat) (M : nat -> nat -> F).
Hypothesis HA : represents A n M.
Hypothesis Hpre : forall r z, length r = n -> length z = n -> exists z', pre r z = Ok z' /\ length z' = n.

Definition linv (st : lst (F:=F)) : Prop :=
  images n m M (g_w st) (g_W st) /\ images n m M (g_x st) (g_X st) /\ images n m M (g_p st) (g_P st) /\
  length (g_l st) = m /\ length (g_tmp st) = n.

(** residual i is the norm of what the preconditioner makes of A x_i - l_i x_i *)
Definition tested (l : list F) (X : list (list F)) (i : nat) (res : F) : Prop :=
  exists r z z', length r = n /\ length z = n /\ (forall k, (k < n)%nat -> fn r k = eig_resid n M (fn l i) (rowf X i) k) /\
    pre r z = Ok z' /\ v_nrm2 z' = Ok res.

(** x_i before it is normalised: the combination of the old rows by the i-th eigenvector *)
Definition ritz (small : bool) (o : lst (F:=F)) (b : list F) (k : nat) : F :=
  sum_n m (fun j => fn b j * rowf (g_w o) j k + fn b (m + j)%nat * rowf (g_x o) j k +
                    (if small then 0 else fn b (2 * m + j)%nat * rowf (g_p o) j k)).

Lemma coeffs_inv small V i b : coeffs m small V i = Ok b -> (i < length V)%nat /\ length b = (3 * m)%nat /\
  length (nth i V []) = (if small then 2 * m else 3 * m)%nat /\
  (forall r, (r < (if small then 2 * m else 3 * m))%nat -> fn b r = rowf V i r) /\
  (small = true -> forall r, (2 * m <= r)%nat -> fn b r = 0).
Proof.
  unfold coeffs. intros H. apply bind_ok in H. destruct H as (b0 & E & H). pose proof (rd_inv _ _ E) as Hn.
  assert (Hi : (i < length V)%nat) by (apply nth_error_Some; congruence).
  assert (Eb : nth i V [] = b0) by now apply nth_error_nth.
  unfold assert_ in H. destruct (length b0 =? (if small then 2 * m else 3 * m))%nat eqn:EL; [|discriminate].
  apply Nat.eqb_eq in EL. cbn [bind] in H. injection H as <-. unfold rowf. rewrite Eb.
  destruct small.
  - split; auto. split; [rewrite app_length, repeat_length; lia|]. split; auto. split.
    + intros r Hr. unfold fn. rewrite app_nth1 by lia. reflexivity.
    + intros _ r Hr. unfold fn. rewrite app_nth2 by lia. apply fn_repeat0.
  - split; auto. split; [lia|]. split; auto. split; [|discriminate]. reflexivity.
Qed.

(** what a finished row is *)
Definition row_done (small : bool) (o : lst (F:=F)) (lam : list F) (V : list (list F)) (l : list F) (X : list (list F)) (i : nat) (r : F) : Prop :=
  tested l X i r /\ (i < length lam)%nat /\ fn l i = fn lam i /\
  exists b, coeffs m small V i = Ok b /\
    forall k, (k < n)%nat -> rowf X i k = (1 / norm2 n (ritz small o b)) * ritz small o b k.

(** undefined behaviour and aborts only if [B] *)
Definition no_hang (B : Prop) {T} (x : res T) (P : T -> Prop) : Prop :=
  match x with Ok a => P a | Throw => False | NoFuel => False | _ => B end.

Lemma no_hang_bind B {S T} (x : res S) (f : S -> res T) P : no_hang B x (fun a => no_hang B (f a) P) -> no_hang B (bind x f) P.
Proof. destruct x; cbn; auto. Qed.

(** ?sygvd left arrays of the size it was given *)
Definition answers (small : bool) (lam : list F) (V : list (list F)) : Prop :=
  length lam = (if small then 2 * m else 3 * m)%nat /\ shaped (if small then 2 * m else 3 * m)%nat (if small then 2 * m else 3 * m)%nat V.

Lemma lob_row_ok small o lam V i st : linv o -> linv st -> (i < m)%nat ->
  no_hang (~ answers small lam V) (lob_row A pre m n small o lam V i st) (fun '(st', r) =>
    exists x, (fnan r = false -> linv st') /\ shaped m n (g_x st') /\ length (g_l st') = m /\
      g_l st' = upd (g_l st) i (fn lam i) /\ g_x st' = upd (g_x st) i x /\
      row_done small o lam V (g_l st') (g_x st') i r).
Proof.
  intros (ow & ox & op & _ & _) (sw & sx & sp & sl & stp) Hi. unfold lob_row.
  destruct (rd lam i) as [li| | | |] eqn:El; cbn [bind no_hang]; auto;
    try (unfold rd in El; destruct (nth_error lam i); discriminate).
  2:{ intros (Ha & _). rewrite (rd_lt lam 0) in El by (rewrite Ha; destruct small; lia). discriminate. }
  pose proof (rd_inv _ _ El) as El'. assert (Hlam : (i < length lam)%nat) by (apply nth_error_Some; congruence).
  assert (Eli : fn lam i = li) by (unfold fn; now apply nth_error_nth).
  rewrite wr_lt by lia. cbn [bind].
  destruct (coeffs m small V i) as [b| | | |] eqn:Eb; cbn [bind no_hang]; auto;
    try (unfold coeffs, rd, assert_ in Eb; destruct (nth_error V i); cbn in Eb; [destruct (_ =? _)%nat in Eb|]; discriminate).
  2,3: intros (_ & Ha1 & Ha2); unfold coeffs in Eb; rewrite (rd_lt V []) in Eb by (rewrite Ha1; destruct small; lia);
    cbn [bind] in Eb; rewrite Ha2, Nat.eqb_refl in Eb by (destruct small; lia); discriminate.
  destruct (coeffs_inv _ _ _ Eb) as (HV & Lb & LV & EV & EZ).
  destruct (@combine_images F SF Hex n m M b _ _ _ _ _ _ Lb ow ox op) as (p & x & P & X & C1 & C2 & Lp & Lx & LP & LX & EP & EX & Ex).
  rewrite C1. cbn [bind]. rewrite C2. cbn [bind].
  assert (Er : forall k, (k < n)%nat -> fn x k = ritz small o b k).
  { intros k Hk. rewrite Ex by auto. unfold ritz. apply sum_ext. intros j Hj. destruct small; [rewrite (EZ eq_refl (2 * m + j)%nat) by lia|]; ring. }
  rewrite (@v_nrm2_exact F SF Hex n p) by auto. cbn [bind].
  rewrite (@v_nrm2_exact F SF Hex n x) by auto. cbn [bind].
  rewrite (@norm2_ext F SF n _ _ Er).
  set (np := 1 / norm2 n (fn p)). set (nx := 1 / norm2 n (ritz small o b)).
  rewrite (rd_lt (g_w st) []) by (destruct sw as ((? & ?) & ?); lia). cbn [bind].
  rewrite (@v_axpyz_ok F SF n); [|now rewrite v_scal_length|now rewrite v_scal_length|now apply sw]. cbn [bind].
  set (w := zipw _ _ _).
  assert (Lw : length w = n) by (unfold w; rewrite zipw_length, v_scal_length; auto).
  destruct (Hpre w (g_tmp st) Lw stp) as (z & Ez & Lz). rewrite Ez. cbn [bind].
  rewrite (@v_copy_ok F n z w) by auto. cbn [bind].
  rewrite (@v_nrm2_exact F SF Hex n z) by auto. cbn [bind].
  rewrite (rd_lt (g_W st) []) by (destruct sw as (? & (? & ?) & ?); lia). cbn [bind].
  set (r := norm2 n (fn z)).
  assert (EX' : forall k, (k < n)%nat -> fn (v_scal nx X) k = mv n M (fn (v_scal nx x)) k).
  { intros k Hk. rewrite v_scal_fn by lia. rewrite EX by auto. rewrite <- (mv_scal Hex). apply mv_ext. intros j Hj. rewrite v_scal_fn by lia. reflexivity. }
  assert (EP' : forall k, (k < n)%nat -> fn (v_scal np P) k = mv n M (fn (v_scal np p)) k).
  { intros k Hk. rewrite v_scal_fn by lia. rewrite EP by auto. rewrite <- (mv_scal Hex). apply mv_ext. intros j Hj. rewrite v_scal_fn by lia. reflexivity. }
  assert (Tail : forall w' W', length w' = n -> length W' = n ->
    (fnan r = false -> forall k, (k < n)%nat -> fn W' k = mv n M (fn w') k) ->
    no_hang (~ answers small lam V) ('(w0, W) <- Ok (w', W') ;;
      gw <- wr (g_w st) i w0 ;; gx <- wr (g_x st) i (v_scal nx x) ;; gp <- wr (g_p st) i (v_scal np p) ;;
      gW <- wr (g_W st) i W ;; gX <- wr (g_X st) i (v_scal nx X) ;; gP <- wr (g_P st) i (v_scal np P) ;;
      Ok (mkL gw gx gp gW gX gP (upd (g_l st) i li) z, r)) (fun '(st', r) =>
    exists x, (fnan r = false -> linv st') /\ shaped m n (g_x st') /\ length (g_l st') = m /\
      g_l st' = upd (g_l st) i (fn lam i) /\ g_x st' = upd (g_x st) i x /\
      row_done small o lam V (g_l st') (g_x st') i r)).
  { intros w' W' Lw' LW' EW. cbn [bind].
    rewrite wr_lt by (destruct sw as ((? & ?) & ?); lia). cbn [bind].
    rewrite wr_lt by (destruct sx as ((? & ?) & ?); lia). cbn [bind].
    rewrite wr_lt by (destruct sp as ((? & ?) & ?); lia). cbn [bind].
    rewrite wr_lt by (destruct sw as (? & (? & ?) & ?); lia). cbn [bind].
    rewrite wr_lt by (destruct sx as (? & (? & ?) & ?); lia). cbn [bind].
    rewrite wr_lt by (destruct sp as (? & (? & ?) & ?); lia). cbn [bind no_hang g_l g_x g_w g_p].
    exists (v_scal nx x). split.
    { intros Hn. unfold linv. cbn. split; [|split; [|split; [|split; auto]]].
      - apply images_upd; auto.
      - apply images_upd; rewrite ?v_scal_length; auto.
      - apply images_upd; rewrite ?v_scal_length; auto.
      - now rewrite upd_length. }
    split; [apply shaped_upd; [apply sx|now rewrite v_scal_length]|]. split; [now rewrite upd_length|].
    split; [now rewrite Eli|]. split; auto.
    assert (HXl : (i < length (g_x st))%nat) by (destruct sx as ((? & ?) & ?); lia).
    unfold row_done. split; [|split; [auto|split]].
    - unfold tested. exists w, (g_tmp st), z. split; auto. split; auto. split; [|split; auto].
      + intros k Hk. rewrite rowf_upd_same by auto. unfold eig_resid.
        assert (Efl : fn (upd (g_l st) i li) i = li) by (unfold fn; now rewrite nth_upd_same by lia). rewrite Efl.
        unfold w. rewrite zipw_fn by (rewrite v_scal_length; lia). rewrite <- EX' by auto. ring.
      + now apply v_nrm2_exact.
    - rewrite Eli. unfold fn. now rewrite nth_upd_same by lia.
    - exists b. split; auto. intros k Hk. rewrite rowf_upd_same by auto. rewrite v_scal_fn by lia. rewrite Er by auto. reflexivity. }
  destruct (fnan r) eqn:En.
  - apply Tail; [congruence| |congruence]. apply sw; lia.
  - destruct HA as (_ & _ & Hmv).
    destruct (Hmv (v_scal (1 / r) z) (nth i (g_W st) [])) as (W' & EW & LW & VW); [now rewrite v_scal_length|apply sw; lia|].
    rewrite EW. cbn [bind]. apply Tail; auto. now rewrite v_scal_length.
Qed.

Lemma row_done_upd small o lam V l X i j lv x r : i <> j -> row_done small o lam V l X j r ->
  row_done small o lam V (upd l i lv) (upd X i x) j r.
Proof.
  intros Hne (T & H1 & H2 & b & Eb & H3). unfold row_done, tested in *.
  assert (Efl : fn (upd l i lv) j = fn l j) by (unfold fn; now rewrite nth_upd_other).
  rewrite Efl. rewrite rowf_upd_other by auto. eauto 10.
Qed.

Lemma lob_rows_ok small o lam V : linv o -> forall k i st acc, (i + k = m)%nat -> linv st -> length acc = i ->
  (forall j, (j < i)%nat -> row_done small o lam V (g_l st) (g_x st) j (fn acc j)) ->
  no_hang (~ answers small lam V) (lob_rows A pre m n small o lam V k i st acc) (fun '(st', rs, bad) =>
    shaped m n (g_x st') /\ length (g_l st') = m /\
    match bad with
    | Some r => fnan r = true
    | None => linv st' /\ length rs = m /\ forall j, (j < m)%nat -> row_done small o lam V (g_l st') (g_x st') j (fn rs j)
    end).
Proof.
  intros Ho. induction k as [|k IH]; intros i st acc Hk Hst La Hd; cbn [lob_rows].
  - cbn [no_hang]. assert (i = m) by lia. subst i. destruct Hst as (h1 & h2 & h3 & h4 & h5).
    split; [apply h2|]. split; auto. split; [unfold linv; auto|]. split; [auto|]. intros j Hj. apply Hd. congruence.
  - apply no_hang_bind. assert (Hi : (i < m)%nat) by lia.
    pose proof (@lob_row_ok small o lam V i st Ho Hst Hi) as H.
    destruct (lob_row A pre m n small o lam V i st) as [[st' r]| | | |]; cbn [no_hang] in *; auto.
    destruct H as (x & H1 & H2 & H3 & H4 & H5 & H6). destruct (fnan r) eqn:En; cbn [no_hang]; auto.
    apply IH; auto; [lia|rewrite app_length; cbn; lia|].
    intros j Hj. unfold fn. destruct (Nat.eq_dec j i) as [ -> |Hne].
    + rewrite app_nth2 by lia. replace (i - length acc)%nat with 0%nat by lia. exact H6.
    + rewrite app_nth1 by lia. rewrite H4, H5. apply row_done_upd; auto. apply Hd. lia.
Qed.

End Loop.
