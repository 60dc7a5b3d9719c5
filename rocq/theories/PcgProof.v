(** * PcgProof: preconditioned CG stops after at most n iterations in exact field arithmetic (proof support for C100). *)
From Coq Require Import Ring.
From Verif Require Import Base Scalar Spec SumFacts SolverModel SolverSpec SolverProof CgProof PcgSpec.
Set Implicit Arguments.

Section PCG.
Context {F : Type} {SF : Scalar F}.
Local Open Scope F_scope.
Hypothesis Hex : exact SF.
Let Hrt : ring_theory f0 f1 fadd fmul fsub fopp (@eq F) := Hex.
Add Ring FringP : Hrt.
Hypothesis Hf : field_arith.
Variables (n : nat) (M : nat -> nat -> F) (K : (nat -> F) -> nat -> F).
Hypothesis Hsym : symmetric n M.
Hypothesis Hdef : definite n M.
Hypothesis HK : sym_definite_map n K.
Local Notation D u v := (dotp n u v).
Local Notation Mv u := (mv n M u).
Local Notation vec := (nat -> F).

Lemma D_lin u a v w : D (fun i => u i + a * v i) w = D u w + a * D v w.
Proof. unfold dotp. rewrite <- (sum_scal Hex), <- (sum_add Hex). apply sum_ext. intros; ring. Qed.
Lemma D_linr u a v w : D w (fun i => u i + a * v i) = D w u + a * D w v.
Proof. unfold dotp. rewrite <- (sum_scal Hex), <- (sum_add Hex). apply sum_ext. intros; ring. Qed.
Lemma D_sym u v : D u (Mv v) = D (Mv u) v.
Proof.
  rewrite (adjoint Hex n n M u v). apply dotp_ext; auto. intros i Hi. unfold mv. apply sum_ext. intros j Hj. f_equal. apply Hsym; auto.
Qed.
Lemma D_ext u v u' v' : (forall i, (i < n)%nat -> u i = u' i) -> (forall i, (i < n)%nat -> v i = v' i) -> D u v = D u' v'.
Proof. apply dotp_ext. Qed.
Lemma D_comm u v : D u v = D v u.
Proof. now apply (dotp_comm Hex). Qed.
Lemma K_ext u v : (forall i, (i < n)%nat -> u i = v i) -> forall i, (i < n)%nat -> K u i = K v i.
Proof. apply HK. Qed.
Lemma K_lin u a v i : (i < n)%nat -> K (fun j => u j + a * v j) i = K u i + a * K v i.
Proof. apply HK. Qed.
Lemma K_sym u v : D u (K v) = D (K u) v.
Proof. apply HK. Qed.
Lemma K_swap u v : D u (K v) = D v (K u).
Proof. rewrite K_sym. apply D_comm. Qed.
Lemma K_zero u : (forall i, (i < n)%nat -> u i = 0) -> forall i, (i < n)%nat -> K u i = 0.
Proof.
  intros H i Hi. rewrite (@K_ext u (fun j => (fun _ => 0) j + - (1) * (fun _ => 0) j)) by (auto; intros j Hj; rewrite H by auto; ring).
  rewrite K_lin by auto. ring.
Qed.

(** mutually K-orthogonal vectors *)
Fixpoint orthK (vs : list vec) : Prop :=
  match vs with
  | [] => True
  | u :: t => D u (K u) <> 0 /\ (forall v, In v t -> D u (K v) = 0) /\ orthK t
  end.
Lemma K_comb u cs vs : length cs = length vs ->
  D u (K (comb cs vs)) = comb cs (map (fun v _ => D u (K v)) vs) 0%nat.
Proof.
  intros HL. rewrite K_swap, D_comm. rewrite (D_comm (K u)), D_comm. rewrite (dot_comb Hex) by auto.
  clear HL. revert vs; induction cs as [|c cs IH]; intros [|v vs]; cbn; auto. rewrite IH. f_equal. f_equal. rewrite D_comm. apply K_swap.
Qed.
Lemma orthK_coef vs : orthK vs -> forall cs, length cs = length vs ->
  (forall v, In v vs -> D v (K (comb cs vs)) = 0) -> forall c, In c cs -> c = 0.
Proof.
  induction vs as [|u vs IH]; intros Ho cs HL HD c Hc.
  - destruct cs; [destruct Hc|discriminate].
  - destruct cs as [|c0 cs]; [discriminate|]. cbn [orthK] in Ho. destruct Ho as (H1 & H2 & H3). cbn [length] in HL.
    assert (E0 : c0 = 0).
    { specialize (HD u (or_introl eq_refl)). rewrite (@K_comb u (c0 :: cs) (u :: vs)) in HD by (cbn; lia).
      cbn in HD. apply (mul_zero Hex Hf c0) with (b := D u (K u)); auto. rewrite <- HD.
      assert (Z : comb cs (map (fun v (_ : nat) => D u (K v)) vs) 0%nat = 0).
      { clear -H2 Hex Hrt HL. assert (HL' : length cs = length vs) by lia. clear HL. revert cs HL'.
        induction vs as [|v vs IH]; intros [|c cs] HL; cbn in *; try discriminate; auto.
        rewrite IH by (auto; intros; apply H2; auto). rewrite H2 by auto. ring. }
      rewrite Z. ring. }
    destruct Hc as [ <- |Hc]; auto.
    apply (@IH H3 cs); auto. intros v Hv. rewrite <- (HD v) by (cbn; auto).
    apply D_ext; auto. intros i Hi. apply K_ext; auto. intros j Hj. cbn. rewrite E0. ring.
Qed.
Lemma orthK_bound vs : orthK vs -> (length vs <= n)%nat.
Proof.
  intros Ho. destruct (Nat.le_gt_cases (length vs) n) as [|Hgt]; auto. exfalso.
  assert (H1 : (1 : F) <> 0).
  { intros E. destruct vs as [|u vs]; [cbn in Hgt; lia|]. destruct Ho as (G & _). apply G.
    transitivity (1 * D u (K u)); [ring|]. rewrite E. ring. }
  destruct (@dependent F SF Hex Hf n H1 vs) as (cs & HL & (c & Hc & Hcz) & HZ); auto.
  apply Hcz. apply (@orthK_coef vs Ho cs); auto. intros v Hv.
  unfold dotp. rewrite (@sum_ext F SF n _ (fun _ => 0)); [apply (sum_zero Hex)|].
  intros i Hi. rewrite (@K_zero _ HZ) by auto. ring.
Qed.

Record Inv (hist : list (vec * vec)) (r p : vec) : Prop := {
  I1 : orthK (map fst hist);
  I2 : forall R P, In (R, P) hist -> D r (K R) = 0 /\ D r P = 0 /\ D p (Mv P) = 0;
  I3 : forall R P, In (R, P) hist -> exists be P', (be = 0 \/ exists R', In (R', P') hist) /\
         forall i, (i < n)%nat -> K R i = P i + be * P' i;
  I4 : exists be P', (be = 0 \/ exists R', In (R', P') hist) /\ forall i, (i < n)%nat -> K r i = p i + be * P' i;
  I5 : forall R P, In (R, P) hist -> exists al R', al <> 0 /\ (R' = r \/ exists P', In (R', P') hist) /\
         forall i, (i < n)%nat -> al * Mv P i = R i + - (1) * R' i
}.

Lemma Inv_init (r p : vec) : (forall i, (i < n)%nat -> p i = K r i) -> Inv [] r p.
Proof.
  intros H. split; cbn; try (intros; contradiction); auto.
  exists 0, r. split; auto. intros i Hi. rewrite H by auto. ring.
Qed.

Lemma step (hist : list (vec * vec)) (r p r' p' : vec) :
  Inv hist r p -> D r (K r) <> 0 ->
  let al := D r (K r) / D p (Mv p) in
  (forall i, (i < n)%nat -> r' i = r i + - al * Mv p i) ->
  let be := D r' (K r') / D r (K r) in
  (forall i, (i < n)%nat -> p' i = K r' i + be * p i) ->
  Inv ((r, p) :: hist) r' p'.
Proof.
  intros [J1 J2 J3 J4 J5] Hr al Hr' be Hp'.
  assert (E1 : D r p = D r (K r)).
  { destruct J4 as (b & P' & HP & HE).
    assert (G : D r (K r) = D r p + b * D r P').
    { rewrite <- D_linr. apply D_ext; auto. }
    rewrite G. destruct HP as [ -> |(R' & HI)]; [ring|]. destruct (J2 _ _ HI) as (_ & -> & _). ring. }
  assert (Hpq : D p (Mv p) <> 0).
  { intros E. apply Hr. rewrite <- E1. unfold dotp. rewrite (@sum_ext F SF n _ (fun _ => 0)); [apply (sum_zero Hex)|].
    intros i Hi. rewrite (@Hdef p (or_intror E) i Hi). ring. }
  assert (Eal : al * D p (Mv p) = D r (K r)) by (apply (div_mul Hf); auto).
  assert (Hal : al <> 0).
  { intros E. apply Hr. rewrite <- Eal, E. ring. }
  assert (E2 : forall w, D r' w = D r w + - al * D (Mv p) w).
  { intros w. rewrite <- D_lin. apply D_ext; auto. }
  assert (E3 : D (Mv p) (K r) = D p (Mv p)).
  { destruct J4 as (b & P' & HP & HE).
    assert (G : D (Mv p) (K r) = D (Mv p) p + b * D (Mv p) P').
    { rewrite <- D_linr. apply D_ext; auto. }
    rewrite G. rewrite (D_comm (Mv p) p). destruct HP as [ -> |(R' & HI)]; [ring|].
    rewrite <- D_sym. destruct (J2 _ _ HI) as (_ & _ & ->). ring. }
  assert (F1 : D r' (K r) = 0).
  { rewrite E2, E3. transitivity (D r (K r) - al * D p (Mv p)); [ring|]. rewrite Eal. ring. }
  assert (F2 : D r' p = 0).
  { rewrite E2, (D_comm (Mv p) p), E1. transitivity (D r (K r) - al * D p (Mv p)); [ring|]. rewrite Eal. ring. }
  assert (F3 : forall R P, In (R, P) hist -> D r' (K R) = 0 /\ D r' P = 0).
  { intros R P HI. destruct (J2 _ _ HI) as (G1 & G2 & G3). split.
    - rewrite E2, G1. destruct (J3 _ _ HI) as (b & P' & HP & HE).
      assert (G : D (Mv p) (K R) = D (Mv p) P + b * D (Mv p) P').
      { rewrite <- D_linr. apply D_ext; auto. }
      rewrite G, <- !D_sym, G3. destruct HP as [ -> |(R' & HI')]; [ring|]. destruct (J2 _ _ HI') as (_ & _ & ->). ring.
    - rewrite E2, G2, <- D_sym, G3. ring. }
  assert (E4 : forall w, D p' w = D (K r') w + be * D p w).
  { intros w. rewrite <- D_lin. apply D_ext; auto. }
  assert (Ebe : be * D r (K r) = D r' (K r')) by (apply (div_mul Hf); auto).
  assert (E5 : al * D (K r') (Mv p) = - D r' (K r')).
  { assert (G : D r' (K r') = D r (K r') + - al * D (Mv p) (K r')) by apply E2.
    rewrite (K_swap r r'), F1 in G. rewrite G, (D_comm (K r')). ring. }
  assert (F4 : D p' (Mv p) = 0).
  { rewrite E4. apply (mul_zero Hex Hf) with (b := al); auto.
    transitivity (al * D (K r') (Mv p) + be * (al * D p (Mv p))); [ring|]. rewrite E5, Eal, Ebe. ring. }
  assert (F5 : forall R P, In (R, P) hist -> D p' (Mv P) = 0).
  { intros R P HI. rewrite E4. destruct (J2 _ _ HI) as (G1 & G2 & G3). rewrite G3.
    destruct (J5 _ _ HI) as (a & R' & Ha & HR' & HE).
    assert (G : D (K r') (Mv P) * a = D (K r') R + - (1) * D (K r') R').
    { rewrite <- D_linr. transitivity (D (K r') (fun i => 0 + a * Mv P i)).
      - rewrite (D_linr (fun _ => 0)). assert (Z : D (K r') (fun _ => 0) = 0).
        { unfold dotp. rewrite (@sum_ext F SF n _ (fun _ => 0)) by (intros; ring). apply (sum_zero Hex). }
        rewrite Z. ring.
      - apply D_ext; auto. intros i Hi. rewrite <- HE by auto. ring. }
    destruct (F3 _ _ HI) as (G4 & _). rewrite <- (K_sym r' R), <- (K_sym r' R'), G4 in G.
    assert (G5 : D r' (K R') = 0).
    { destruct HR' as [ -> |(P' & HI')]; auto. apply (F3 _ _ HI'). }
    rewrite G5 in G. assert (G6 : D (K r') (Mv P) * a = 0) by (rewrite G; ring).
    rewrite (mul_zero Hex Hf _ G6 Ha). ring. }
  split.
  - cbn [map fst orthK]. split; auto. split; auto. intros v Hv. apply in_map_iff in Hv. destruct Hv as ([R P] & <- & HI).
    cbn [fst]. apply (J2 _ _ HI).
  - intros R P [E|HI].
    + inversion E; subst R P. auto.
    + destruct (F3 _ _ HI). split; auto. split; auto. eapply F5; eauto.
  - intros R P [E|HI].
    + inversion E; subst R P. destruct J4 as (b & P' & HP & HE). exists b, P'. split; auto.
      destruct HP as [|(R' & HI)]; auto. right. exists R'. cbn. auto.
    + destruct (J3 _ _ HI) as (b & P' & HP & HE). exists b, P'. split; auto.
      destruct HP as [|(R' & HI')]; auto. right. exists R'. cbn. auto.
  - exists (- be), p. split; [right; exists r; cbn; auto|]. intros i Hi. rewrite Hp' by auto. ring.
  - intros R P [E|HI].
    + inversion E; subst R P. exists al, r'. split; auto. split; auto. intros i Hi. rewrite Hr' by auto. ring.
    + destruct (J5 _ _ HI) as (a & R' & Ha & HR' & HE). exists a, R'. split; auto. split; auto.
      destruct HR' as [ -> |(P' & HI')]; right; [exists p|exists P']; cbn; auto.
Qed.

(** ** the loop *)
Variables (c : cfg (F:=F)) (A : matif (F:=F)) (pf : list F -> list F -> res (list F)).
Hypothesis HA : represents A n M.
Hypothesis HP : forall r z, length r = n -> length z = n ->
  exists z', pf r z = Ok z' /\ length z' = n /\ forall i, (i < n)%nat -> fn z' i = K (fn r) i.
Hypothesis Hm : s_method c = 0%nat.
Hypothesis Htol : fltb (fsqrt 0) (s_tol c) = true.
Hypothesis Hmax : (1 <= s_maxiter c /\ n <= s_maxiter c /\ s_miniter c <= s_maxiter c)%nat.

Local Notation zeros l := (forall i, (i < n)%nat -> fn l i = 0).

Lemma norm2_zeros (l : list F) : zeros l -> norm2 n (fn l) = fsqrt 0.
Proof.
  intros H. unfold norm2. f_equal. rewrite (@sum_ext F SF n _ (fun _ => 0)); [apply (sum_zero Hex)|].
  intros i Hi. rewrite H by auto. ring.
Qed.

Lemma pcg_loop_fin k : forall iter x r p q z,
  (iter + k = s_maxiter c)%nat -> length x = n -> length r = n -> length p = n -> length q = n -> length z = n ->
  (forall i, (i < n)%nat -> fn z i = K (fn r) i) ->
  ((exists hist, length hist = iter /\ Inv hist (fn r) (fn p) /\ D (fn r) (K (fn r)) <> 0) \/
   (zeros r /\ zeros p /\ (iter = 0 \/ iter < s_miniter c)%nat)) ->
  exists o, cg_loop c A pf k iter x r p q z = Ok o /\ o_code o = SUCCESS /\
    (o_iter o <= Nat.max 1 (Nat.max n (s_miniter c)))%nat.
Proof.
  destruct HA as (R1 & R2 & R3).
  induction k as [|k IH]; intros iter x r p q z Hk Hx Hr Hp Hq Hz HZ HI.
  - exfalso. destruct HI as [(hist & HL & [J1 J2 _ _ _] & Hn)|(_ & _ & H)]; [|lia].
    assert (Ho : orthK (map fst ((fn r, fn p) :: hist))).
    { cbn [map fst orthK]. split; auto. split; auto. intros v Hv. apply in_map_iff in Hv. destruct Hv as ([R P] & <- & H).
      apply (J2 _ _ H). }
    apply orthK_bound in Ho. rewrite map_length in Ho. cbn [length] in Ho. lia.
  - cbn [cg_loop]. destruct (R3 p q Hp Hq) as (q' & E & Hq' & HQ). rewrite E. cbn [bind]. clear E.
    rewrite !(@v_dot_exact F SF Hex n) by auto. cbn [bind].
    assert (Ez : D (fn z) (fn r) = D (fn r) (K (fn r))) by (rewrite D_comm; apply D_ext; auto).
    rewrite Ez.
    set (alpha := D (fn r) (K (fn r)) / dotp n (fn p) (fn q')).
    rewrite (@v_axpy_ok F SF n) by auto. cbn [bind]. rewrite (@v_axpy_ok F SF n) by auto. cbn [bind].
    set (x' := zipw _ p x). set (r' := zipw _ q' r).
    assert (Hx' : length x' = n) by (unfold x'; now rewrite zipw_length).
    assert (Hr' : length r' = n) by (unfold r'; now rewrite zipw_length).
    destruct (HP r' z Hr' Hz) as (z' & Ep & Hz' & HZ'). rewrite Ep. cbn [bind]. clear Ep.
    rewrite (@v_dot_exact F SF Hex n) by auto. cbn [bind].
    assert (Ez' : D (fn z') (fn r') = D (fn r') (K (fn r'))) by (rewrite D_comm; apply D_ext; auto).
    rewrite Ez'.
    rewrite (@v_xpay_ok F SF n) by auto. cbn [bind].
    set (be := D (fn r') (K (fn r')) / D (fn r) (K (fn r))).
    set (p' := zipw _ z' p).
    assert (Hp' : length p' = n) by (unfold p'; now rewrite zipw_length).
    assert (Rr' : forall i, (i < n)%nat -> fn r' i = fn r i + - alpha * fn q' i).
    { intros i Hi. unfold r'. now rewrite zipw_fn by lia. }
    assert (Rp' : forall i, (i < n)%nat -> fn p' i = K (fn r') i + be * fn p i).
    { intros i Hi. unfold p'. rewrite zipw_fn by lia. now rewrite HZ'. }
    clearbody x' r' p'.
    unfold get_residual. rewrite Hm, (@v_nrm2_exact F SF Hex n) by auto. cbn [bind].
    destruct Hf as (_ & _ & Hnan). rewrite Hnan.
    assert (Hit : (iter + 1 <= Nat.max 1 (Nat.max n (s_miniter c)))%nat).
    { destruct HI as [(hist & HL & [J1 J2 _ _ _] & Hn)|(_ & _ & H)]; [|lia].
      assert (Ho : orthK (map fst ((fn r, fn p) :: hist))).
      { cbn [map fst orthK]. split; auto. split; auto. intros v Hv. apply in_map_iff in Hv. destruct Hv as ([R P] & <- & H).
        apply (J2 _ _ H). }
      apply orthK_bound in Ho. rewrite map_length in Ho. cbn [length] in Ho. lia. }
    destruct (fltb _ _ && _) eqn:E1.
    + eexists; split; [reflexivity|]. split; auto.
    + apply IH; auto; [lia|].
      assert (ZZ : zeros r' -> zeros p' -> zeros r' /\ zeros p' /\ (S iter = 0 \/ S iter < s_miniter c)%nat).
      { intros Z1 Z2. split; auto. split; auto. right. rewrite (norm2_zeros r' Z1), Htol in E1. cbn [andb] in E1.
        apply Nat.leb_gt in E1. lia. }
      destruct HI as [(hist & HL & HInv & Hn)|(Z1 & Z2 & _)].
      * assert (Eq : D (fn p) (fn q') = D (fn p) (Mv (fn p))) by (apply D_ext; auto).
        assert (S1 : Inv ((fn r, fn p) :: hist) (fn r') (fn p')).
        { apply step; auto. intros i Hi. rewrite Rr', HQ by auto. unfold alpha. now rewrite Eq. }
        destruct (eq_dec Hf (D (fn r') (K (fn r'))) 0) as [E0|E0].
        -- right. assert (Z1 : zeros r') by (intros i Hi; apply (proj2 (proj2 HK) _ E0); auto).
           apply ZZ; auto. intros i Hi. rewrite Rp' by auto. rewrite (@K_zero _ Z1) by auto.
           assert (B : be = 0).
           { apply (mul_zero Hex Hf) with (b := D (fn r) (K (fn r))); auto. unfold be. rewrite (div_mul Hf) by auto. auto. }
           rewrite B. ring.
        -- left. exists ((fn r, fn p) :: hist). cbn [length]. split; auto.
      * right.
        assert (Zq : zeros q') by (intros i Hi; rewrite HQ by auto; unfold mv;
          rewrite (@sum_ext F SF n _ (fun _ => 0)); [apply (sum_zero Hex)|intros j Hj; rewrite Z2 by auto; ring]).
        assert (Z1' : zeros r') by (intros i Hi; rewrite Rr', Zq, Z1 by auto; ring).
        apply ZZ; auto. intros i Hi. rewrite Rp', (@K_zero _ Z1'), Z2 by auto. ring.
Qed.

Lemma pcg_finite (pre : precond (F:=F)) x b li lr : pre A = Ok pf -> s_lib c = 0%nat -> length x = n -> length b = n ->
  exists o, cg_solve c A pre x b li lr = Ok o /\ o_code o = SUCCESS /\
    (o_iter o <= Nat.max 1 (Nat.max n (s_miniter c)))%nat.
Proof.
  intros Epf Hl Hx Hb. unfold cg_solve. rewrite Hl. unfold monolish_cg. pose proof HA as (R1 & R2 & R3).
  rewrite R1, R2, Nat.eqb_refl. cbn [require_ bind]. rewrite Epf. cbn [bind].
  assert (Hz : length (repeat 0 n) = n) by now rewrite repeat_length.
  destruct (R3 x (repeat f0 n) Hx Hz) as (q & -> & Hq & HQ). cbn [bind].
  rewrite (@v_sub_ok F SF n) by auto. cbn [bind].
  set (r := zipw fsub b q). assert (Hr : length r = n) by (unfold r; now rewrite zipw_length).
  destruct (HP r (repeat f0 n) Hr Hz) as (z & -> & Lz & EZ). cbn [bind].
  rewrite !(@v_copy_ok F n) by auto. cbn [bind].
  apply pcg_loop_fin; auto.
  destruct (eq_dec Hf (D (fn r) (K (fn r))) 0) as [E0|E0].
  - right. assert (Z : zeros r) by (intros i Hi; apply (proj2 (proj2 HK) _ E0); auto). split; auto. split; auto.
    intros i Hi. rewrite EZ by auto. now apply K_zero.
  - left. exists []. split; auto. split; auto. now apply Inv_init.
Qed.
End PCG.
