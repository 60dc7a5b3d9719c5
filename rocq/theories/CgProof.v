(** * CgProof: in exact field arithmetic CG stops after at most n iterations (proof support for C49). *)
From Coq Require Import Ring.
From Verif Require Import Base Scalar Spec SumFacts SolverModel SolverSpec SolverProof.
Set Implicit Arguments.

Section Dim.
Context {F : Type} {SF : Scalar F}.
Local Open Scope F_scope.
Hypothesis Hex : exact SF.
Let Hrt : ring_theory f0 f1 fadd fmul fsub fopp (@eq F) := Hex.
Add Ring FringD : Hrt.
Hypothesis Hf : field_arith.

Lemma eq_dec (a b : F) : {a = b} + {a <> b}.
Proof.
  destruct Hf as (_ & H & _). destruct (feqb a b) eqn:E.
  - left. now apply H.
  - right. intros G. apply H in G. congruence.
Qed.

Lemma div_mul (a b : F) : b <> 0 -> (a / b) * b = a.
Proof. apply Hf. Qed.

Lemma mul_zero (a b : F) : a * b = 0 -> b <> 0 -> a = 0.
Proof.
  intros H Hb. transitivity (a * b * (1 / b)).
  - transitivity (a * ((1 / b) * b)); [|ring]. rewrite div_mul by auto. ring.
  - rewrite H. ring.
Qed.

(** sum of c_k v_k(i) over two lists *)
Fixpoint comb (cs : list F) (vs : list (nat -> F)) (i : nat) : F :=
  match cs, vs with c :: cs, v :: vs => c * v i + comb cs vs i | _, _ => 0 end.

Lemma comb_app c1 c2 v1 v2 i : length c1 = length v1 -> comb (c1 ++ c2) (v1 ++ v2) i = comb c1 v1 i + comb c2 v2 i.
Proof.
  revert v1; induction c1 as [|c c1 IH]; intros [|v v1] H; cbn in *; try discriminate; [ring|].
  rewrite IH by lia. ring.
Qed.

Lemma comb_zero vs i : comb (repeat 0 (length vs)) vs i = 0.
Proof. induction vs as [|v vs IH]; cbn; auto. rewrite IH. ring. Qed.

(** subtracting multiples of the pivot *)
Lemma comb_pivot (g : (nat -> F) -> F) (v : nat -> F) cs vs i : length cs = length vs ->
  comb cs (map (fun w j => w j - g w * v j) vs) i = comb cs vs i - comb cs (map (fun w _ => g w) vs) 0%nat * v i.
Proof.
  revert vs; induction cs as [|c cs IH]; intros [|w vs] H; cbn in *; try discriminate; [ring|].
  rewrite IH by lia. ring.
Qed.

(** more than n vectors of F^n are linearly dependent *)
Lemma dependent n : (1 : F) <> 0 -> forall vs : list (nat -> F), (n < length vs)%nat ->
  exists cs, length cs = length vs /\ (exists c, In c cs /\ c <> 0) /\ forall i, (i < n)%nat -> comb cs vs i = 0.
Proof.
  intros H1. induction n as [|n IH]; intros vs Hl.
  - destruct vs as [|v vs]; [cbn in Hl; lia|]. exists (1 :: repeat 0 (length vs)). cbn. rewrite repeat_length.
    split; auto. split; [|lia]. exists 1. auto.
  - (* find a vector whose coordinate n is not 0 *)
    assert (P : (forall v, In v vs -> v n = 0) \/ exists v, In v vs /\ v n <> 0).
    { clear -Hf. induction vs as [|v vs IH]; [left; intros ? []|].
      destruct (eq_dec (v n) 0) as [E|E].
      - destruct IH as [IH|(w & Hw & Hn)].
        + left. intros w [ <- |Hw]; auto.
        + right. exists w. cbn. auto.
      - right. exists v. cbn. auto. }
    destruct P as [P|(v & Hv & Hn)].
    + destruct (IH vs) as (cs & HL & Hc & HZ); [lia|]. exists cs. split; auto. split; auto.
      intros i Hi. destruct (Nat.eq_dec i n) as [ -> |Hne]; [|apply HZ; lia].
      clear -P HL Hex Hrt. revert cs HL; induction vs as [|v vs IH]; intros [|c cs] HL; cbn in *; try discriminate; auto.
      rewrite IH by (auto; intros; apply P; auto). rewrite P by auto. ring.
    + apply in_split in Hv. destruct Hv as (l1 & l2 & ->).
      rewrite app_length in Hl. cbn [length] in Hl.
      set (g := fun w : nat -> F => w n / v n).
      destruct (IH (map (fun w j => w j - g w * v j) (l1 ++ l2))) as (cs & HL & (c & Hc & Hcz) & HZ).
      { rewrite map_length, app_length. lia. }
      rewrite map_length, app_length in HL.
      set (c1 := firstn (length l1) cs). set (c2 := skipn (length l1) cs).
      assert (Ecs : cs = c1 ++ c2) by (unfold c1, c2; now rewrite firstn_skipn).
      assert (L1 : length c1 = length l1) by (unfold c1; rewrite firstn_length; lia).
      assert (L2 : length c2 = length l2) by (unfold c2; rewrite skipn_length; lia).
      clearbody c1 c2. subst cs.
      set (cv := - comb (c1 ++ c2) (map (fun w _ => g w) (l1 ++ l2)) 0%nat).
      exists (c1 ++ cv :: c2). split; [rewrite !app_length; cbn; lia|]. split.
      { exists c. split; auto. rewrite in_app_iff in Hc |- *. cbn. tauto. }
      intros i Hi. rewrite comb_app by auto. cbn [comb].
      assert (G : comb (c1 ++ c2) (l1 ++ l2) i + cv * v i = 0).
      { destruct (Nat.eq_dec i n) as [ -> |Hne].
        - unfold cv.
          assert (E : forall cs vs, comb cs (map (fun w (_ : nat) => g w) vs) 0%nat * v n = comb cs vs n).
          { clear -Hn Hf Hex Hrt. induction cs as [|c cs IH]; intros [|w vs]; cbn; try ring. rewrite <- IH.
            unfold g. transitivity (c * (w n / v n * v n) + comb cs (map (fun w0 (_ : nat) => w0 n / v n) vs) 0%nat * v n); [ring|].
            rewrite div_mul by auto. reflexivity. }
          transitivity (comb (c1 ++ c2) (l1 ++ l2) n - comb (c1 ++ c2) (map (fun w (_ : nat) => g w) (l1 ++ l2)) 0%nat * v n); [ring|].
          rewrite E. ring.
        - rewrite <- (HZ i) by lia. rewrite comb_pivot by (rewrite !app_length; lia). unfold cv. ring. }
      rewrite comb_app in G by auto. rewrite <- G. ring.
Qed.

(** dot with a combination *)
Lemma dot_comb n u cs vs : length cs = length vs ->
  dotp n u (comb cs vs) = comb cs (map (fun v _ => dotp n u v) vs) 0%nat.
Proof.
  revert vs; induction cs as [|c cs IH]; intros [|v vs] H; cbn in *; try discriminate.
  - unfold dotp. rewrite (@sum_ext F SF n _ (fun _ => 0)) by (intros; ring). apply (sum_zero Hex).
  - rewrite <- IH by lia. unfold dotp. rewrite <- (sum_scal Hex), <- (sum_add Hex).
    apply sum_ext. intros i Hi. ring.
Qed.

(** mutually orthogonal vectors, none of them isotropic *)
Fixpoint orth (n : nat) (vs : list (nat -> F)) : Prop :=
  match vs with
  | [] => True
  | u :: t => dotp n u u <> 0 /\ (forall v, In v t -> dotp n u v = 0) /\ orth n t
  end.

Lemma dotp_comm n u v : dotp n u v = dotp n v u.
Proof. unfold dotp. apply sum_ext. intros; ring. Qed.
Lemma dotp_ext n u v u' v' : (forall i, (i < n)%nat -> u i = u' i) -> (forall i, (i < n)%nat -> v i = v' i) ->
  dotp n u v = dotp n u' v'.
Proof. intros H1 H2. unfold dotp. apply sum_ext. intros i Hi. now rewrite H1, H2. Qed.

Lemma orth_coef n vs : orth n vs -> forall cs, length cs = length vs ->
  (forall v, In v vs -> dotp n v (comb cs vs) = 0) -> forall c, In c cs -> c = 0.
Proof.
  induction vs as [|u vs IH]; intros Ho cs HL HD c Hc.
  - destruct cs; [destruct Hc|discriminate].
  - destruct cs as [|c0 cs]; [discriminate|]. cbn [orth] in Ho. destruct Ho as (H1 & H2 & H3). cbn [length] in HL.
    assert (E0 : c0 = 0).
    { specialize (HD u (or_introl eq_refl)). rewrite (@dot_comb n u (c0 :: cs) (u :: vs)) in HD by (cbn; lia).
      cbn in HD. apply (@mul_zero c0 (dotp n u u)); auto. rewrite <- HD.
      assert (Z : comb cs (map (fun v (_ : nat) => dotp n u v) vs) 0%nat = 0).
      { clear -H2 Hex Hrt HL. assert (HL' : length cs = length vs) by lia. clear HL. revert cs HL'.
        induction vs as [|v vs IH]; intros [|c cs] HL; cbn in *; try discriminate; auto.
        rewrite IH by (auto; intros; apply H2; auto). rewrite H2 by auto. ring. }
      rewrite Z. ring. }
    destruct Hc as [ <- |Hc]; auto.
    apply (@IH H3 cs); auto. intros v Hv. rewrite <- (HD v) by (cbn; auto).
    apply dotp_ext; auto. intros i Hi. cbn. rewrite E0. ring.
Qed.

Lemma orth_bound n vs : orth n vs -> (length vs <= n)%nat.
Proof.
  intros Ho. destruct (Nat.le_gt_cases (length vs) n) as [|Hgt]; auto. exfalso.
  assert (H1 : (1 : F) <> 0).
  { intros E. destruct vs as [|u vs]; [cbn in Hgt; lia|]. destruct Ho as (G & _). apply G.
    transitivity (1 * dotp n u u); [ring|]. rewrite E. ring. }
  destruct (@dependent n H1 vs) as (cs & HL & (c & Hc & Hcz) & HZ); auto.
  apply Hcz. apply (@orth_coef n vs Ho cs); auto. intros v Hv.
  unfold dotp. rewrite (@sum_ext F SF n _ (fun _ => 0)); [apply (sum_zero Hex)|].
  intros i Hi. rewrite HZ by auto. ring.
Qed.
End Dim.

Section CG.
Context {F : Type} {SF : Scalar F}.
Local Open Scope F_scope.
Hypothesis Hex : exact SF.
Let Hrt : ring_theory f0 f1 fadd fmul fsub fopp (@eq F) := Hex.
Add Ring FringC : Hrt.
Hypothesis Hf : field_arith.
Variables (n : nat) (M : nat -> nat -> F).
Hypothesis Hsym : symmetric n M.
Hypothesis Hdef : definite n M.
Local Notation D u v := (dotp n u v).
Local Notation Mv u := (mv n M u).
Local Notation vec := (nat -> F).

Lemma D_lin u a v w : D (fun i => u i + a * v i) w = D u w + a * D v w.
Proof. unfold dotp. rewrite <- (sum_scal Hex), <- (sum_add Hex). apply sum_ext. intros; ring. Qed.
Lemma D_linr u a v w : D w (fun i => u i + a * v i) = D w u + a * D w v.
Proof. unfold dotp. rewrite <- (sum_scal Hex), <- (sum_add Hex). apply sum_ext. intros; ring. Qed.
Lemma D_sym u v : D u (Mv v) = D (Mv u) v.
Proof.
  rewrite (adjoint Hex n n M u v). apply dotp_ext; auto. intros i Hi. unfold mv. apply sum_ext. intros j Hj. f_equal. apply Hsym; auto.
Qed.
Lemma D_ext u v u' v' : (forall i, (i < n)%nat -> u i = u' i) -> (forall i, (i < n)%nat -> v i = v' i) -> D u v = D u' v'.
Proof. apply dotp_ext. Qed.
Lemma D_comm u v : D u v = D v u.
Proof. now apply (dotp_comm Hex). Qed.

Record Inv (hist : list (vec * vec)) (r p : vec) : Prop := {
  I1 : orth n (map fst hist);
  I2 : forall R P, In (R, P) hist -> D r R = 0 /\ D r P = 0 /\ D p (Mv P) = 0;
  I3 : forall R P, In (R, P) hist -> exists be P', (be = 0 \/ exists R', In (R', P') hist) /\
         forall i, (i < n)%nat -> R i = P i + be * P' i;
  I4 : exists be P', (be = 0 \/ exists R', In (R', P') hist) /\ forall i, (i < n)%nat -> r i = p i + be * P' i;
  I5 : forall R P, In (R, P) hist -> exists al R', al <> 0 /\ (R' = r \/ exists P', In (R', P') hist) /\
         forall i, (i < n)%nat -> al * Mv P i = R i + - (1) * R' i
}.

Lemma Inv_init (r p : vec) : (forall i, (i < n)%nat -> p i = r i) -> Inv [] r p.
Proof.
  intros H. split; cbn; try (intros; contradiction); auto.
  exists 0, r. split; auto. intros i Hi. rewrite H by auto. ring.
Qed.

Lemma step (hist : list (vec * vec)) (r p r' p' : vec) :
  Inv hist r p -> D r r <> 0 ->
  let al := D r r / D p (Mv p) in
  (forall i, (i < n)%nat -> r' i = r i + - al * Mv p i) ->
  let be := D r' r' / D r r in
  (forall i, (i < n)%nat -> p' i = r' i + be * p i) ->
  Inv ((r, p) :: hist) r' p'.
Proof.
  intros [J1 J2 J3 J4 J5] Hr al Hr' be Hp'.
  assert (E1 : D r p = D r r).
  { destruct J4 as (b & P' & HP & HE).
    assert (G : D r r = D r p + b * D r P').
    { rewrite <- D_linr. apply D_ext; auto. }
    rewrite G. destruct HP as [ -> |(R' & HI)]; [ring|]. destruct (J2 _ _ HI) as (_ & -> & _). ring. }
  assert (Hpq : D p (Mv p) <> 0).
  { intros E. apply Hr. rewrite <- E1. unfold dotp. rewrite (@sum_ext F SF n _ (fun _ => 0)); [apply (sum_zero Hex)|].
    intros i Hi. rewrite (@Hdef p (or_intror E) i Hi). ring. }
  assert (Eal : al * D p (Mv p) = D r r) by (apply (div_mul Hf); auto).
  assert (Hal : al <> 0).
  { intros E. apply Hr. rewrite <- Eal, E. ring. }
  assert (E2 : forall w, D r' w = D r w + - al * D (Mv p) w).
  { intros w. rewrite <- D_lin. apply D_ext; auto. }
  assert (E3 : D (Mv p) r = D p (Mv p)).
  { destruct J4 as (b & P' & HP & HE).
    assert (G : D (Mv p) r = D (Mv p) p + b * D (Mv p) P').
    { rewrite <- D_linr. apply D_ext; auto. }
    rewrite G. rewrite (D_comm (Mv p) p). destruct HP as [ -> |(R' & HI)]; [ring|].
    rewrite <- D_sym. destruct (J2 _ _ HI) as (_ & _ & ->). ring. }
  assert (F1 : D r' r = 0).
  { rewrite E2, E3. transitivity (D r r - al * D p (Mv p)); [ring|]. rewrite Eal. ring. }
  assert (F2 : D r' p = 0).
  { rewrite E2, (D_comm (Mv p) p), E1. transitivity (D r r - al * D p (Mv p)); [ring|]. rewrite Eal. ring. }
  assert (F3 : forall R P, In (R, P) hist -> D r' R = 0 /\ D r' P = 0).
  { intros R P HI. destruct (J2 _ _ HI) as (G1 & G2 & G3). split.
    - rewrite E2, G1. destruct (J3 _ _ HI) as (b & P' & HP & HE).
      assert (G : D (Mv p) R = D (Mv p) P + b * D (Mv p) P').
      { rewrite <- D_linr. apply D_ext; auto. }
      rewrite G, <- !D_sym, G3. destruct HP as [ -> |(R' & HI')]; [ring|]. destruct (J2 _ _ HI') as (_ & _ & ->). ring.
    - rewrite E2, G2, <- D_sym, G3. ring. }
  assert (E4 : forall w, D p' w = D r' w + be * D p w).
  { intros w. rewrite <- D_lin. apply D_ext; auto. }
  assert (Ebe : be * D r r = D r' r') by (apply (div_mul Hf); auto).
  assert (E5 : al * D r' (Mv p) = - D r' r').
  { assert (G : D r' r' = D r' r + - al * D r' (Mv p)).
    { rewrite <- D_linr. apply D_ext; auto. }
    rewrite F1 in G. rewrite G. ring. }
  assert (F4 : D p' (Mv p) = 0).
  { rewrite E4. apply (mul_zero Hex Hf) with (b := al); auto.
    transitivity (al * D r' (Mv p) + be * (al * D p (Mv p))); [ring|]. rewrite E5, Eal, Ebe. ring. }
  assert (F5 : forall R P, In (R, P) hist -> D p' (Mv P) = 0).
  { intros R P HI. rewrite E4. destruct (J2 _ _ HI) as (G1 & G2 & G3). rewrite G3.
    destruct (J5 _ _ HI) as (a & R' & Ha & HR' & HE).
    assert (G : D r' (Mv P) * a = D r' R + - (1) * D r' R').
    { rewrite <- D_linr. transitivity (D r' (fun i => 0 + a * Mv P i)).
      - rewrite (D_linr (fun _ => 0)). assert (Z : D r' (fun _ => 0) = 0).
        { unfold dotp. rewrite (@sum_ext F SF n _ (fun _ => 0)) by (intros; ring). apply (sum_zero Hex). }
        rewrite Z. ring.
      - apply D_ext; auto. intros i Hi. rewrite <- HE by auto. ring. }
    destruct (F3 _ _ HI) as (G4 & _). rewrite G4 in G.
    assert (G5 : D r' R' = 0).
    { destruct HR' as [ -> |(P' & HI')]; auto. apply (F3 _ _ HI'). }
    rewrite G5 in G. assert (G6 : D r' (Mv P) * a = 0) by (rewrite G; ring).
    rewrite (mul_zero Hex Hf _ G6 Ha). ring. }
  split.
  - cbn [map fst orth]. split; auto. split; auto. intros v Hv. apply in_map_iff in Hv. destruct Hv as ([R P] & <- & HI).
    cbn [fst]. apply (J2 _ _ HI).
  - intros R P [E|HI].
    + inversion E; subst R P. auto.
    + destruct (F3 _ _ HI). split; auto. split; auto. eapply F5; eauto.
  - intros R P [E|HI].
    + inversion E; subst R P. destruct J4 as (b & P' & HP & HE). exists b, P'. split; auto.
      destruct HP as [|(R' & HI)]; auto. right. exists R'. cbn. auto.
    + destruct (J3 _ _ HI) as (b & P' & HP & HE). exists b, P'. split; auto.
      destruct HP as [|(R' & HI')]; auto. right. exists R'. cbn. auto.
  - exists (- be), p. split; [right; exists r; cbn; auto|]. intros i Hi. rewrite Hp' by auto. ring.
  - intros R P [E|HI].
    + inversion E; subst R P. exists al, r'. split; auto. split; auto. intros i Hi. rewrite Hr' by auto. ring.
    + destruct (J5 _ _ HI) as (a & R' & Ha & HR' & HE). exists a, R'. split; auto. split; auto.
      destruct HR' as [ -> |(P' & HI')]; right; [exists p|exists P']; cbn; auto.
Qed.

(** ** the loop *)
Variables (c : cfg (F:=F)) (A : matif (F:=F)).
Hypothesis HA : represents A n M.
Hypothesis Hm : s_method c = 0%nat.
Hypothesis Htol : fltb (fsqrt 0) (s_tol c) = true.
Hypothesis Hmax : (1 <= s_maxiter c /\ n <= s_maxiter c /\ s_miniter c <= s_maxiter c)%nat.

Definition zeros (l : list F) : Prop := forall i, (i < n)%nat -> fn l i = 0.

Lemma norm2_zeros l : zeros l -> norm2 n (fn l) = fsqrt 0.
Proof.
  intros H. unfold norm2. f_equal. rewrite (@sum_ext F SF n _ (fun _ => 0)); [apply (sum_zero Hex)|].
  intros i Hi. rewrite H by auto. ring.
Qed.

Lemma D_zeros l u : zeros l -> D (fn l) u = 0.
Proof.
  intros H. unfold dotp. rewrite (@sum_ext F SF n _ (fun _ => 0)); [apply (sum_zero Hex)|].
  intros i Hi. rewrite H by auto. ring.
Qed.

Lemma cg_loop_fin k : forall iter x r p q,
  (iter + k = s_maxiter c)%nat -> length x = n -> length r = n -> length p = n -> length q = n ->
  ((exists hist, length hist = iter /\ Inv hist (fn r) (fn p) /\ D (fn r) (fn r) <> 0) \/
   (zeros r /\ zeros p /\ (iter = 0 \/ iter < s_miniter c)%nat)) ->
  exists o, cg_loop c A (fun r z => v_copy r z) k iter x r p q r = Ok o /\ o_code o = SUCCESS /\
    (o_iter o <= Nat.max 1 (Nat.max n (s_miniter c)))%nat.
Proof.
  destruct HA as (R1 & R2 & R3).
  induction k as [|k IH]; intros iter x r p q Hk Hx Hr Hp Hq HI.
  - exfalso. destruct HI as [(hist & HL & [J1 J2 _ _ _] & Hn)|(_ & _ & H)]; [|lia].
    assert (Ho : orth n (map fst ((fn r, fn p) :: hist))).
    { cbn [map fst orth]. split; auto. split; auto. intros v Hv. apply in_map_iff in Hv. destruct Hv as ([R P] & <- & H).
      apply (J2 _ _ H). }
    apply (orth_bound Hex Hf) in Ho. rewrite map_length in Ho. cbn [length] in Ho. lia.
  - cbn [cg_loop]. destruct (R3 p q Hp Hq) as (q' & E & Hq' & HQ). rewrite E. cbn [bind]. clear E.
    rewrite !(@v_dot_exact F SF Hex n) by auto. cbn [bind].
    set (alpha := dotp n (fn r) (fn r) / dotp n (fn p) (fn q')).
    rewrite (@v_axpy_ok F SF n) by auto. cbn [bind]. rewrite (@v_axpy_ok F SF n) by auto. cbn [bind].
    set (x' := zipw _ p x). set (r' := zipw _ q' r).
    assert (Hx' : length x' = n) by (unfold x'; now rewrite zipw_length).
    assert (Hr' : length r' = n) by (unfold r'; now rewrite zipw_length).
    rewrite (@v_copy_ok F n) by auto. cbn [bind].
    rewrite (@v_dot_exact F SF Hex n) by auto. cbn [bind].
    rewrite (@v_xpay_ok F SF n) by auto. cbn [bind].
    set (be := dotp n (fn r') (fn r') / dotp n (fn r) (fn r)).
    set (p' := zipw _ r' p).
    assert (Hp' : length p' = n) by (unfold p'; now rewrite zipw_length).
    assert (Rr' : forall i, (i < n)%nat -> fn r' i = fn r i + - alpha * fn q' i).
    { intros i Hi. unfold r'. now rewrite zipw_fn by lia. }
    assert (Rp' : forall i, (i < n)%nat -> fn p' i = fn r' i + be * fn p i).
    { intros i Hi. unfold p'. now rewrite zipw_fn by lia. }
    clearbody x' r' p'.
    unfold get_residual. rewrite Hm, (@v_nrm2_exact F SF Hex n) by auto. cbn [bind].
    destruct Hf as (_ & _ & Hnan). rewrite Hnan.
    assert (Hit : (iter + 1 <= Nat.max 1 (Nat.max n (s_miniter c)))%nat).
    { destruct HI as [(hist & HL & [J1 J2 _ _ _] & Hn)|(_ & _ & H)]; [|lia].
      assert (Ho : orth n (map fst ((fn r, fn p) :: hist))).
      { cbn [map fst orth]. split; auto. split; auto. intros v Hv. apply in_map_iff in Hv. destruct Hv as ([R P] & <- & H).
        apply (J2 _ _ H). }
      apply (orth_bound Hex Hf) in Ho. rewrite map_length in Ho. cbn [length] in Ho. lia. }
    destruct (fltb _ _ && _) eqn:E1.
    + eexists; split; [reflexivity|]. split; auto.
    + apply IH; auto; [lia|].
      assert (ZZ : zeros r' -> zeros p' -> zeros r' /\ zeros p' /\ (S iter = 0 \/ S iter < s_miniter c)%nat).
      { intros Z1 Z2. split; auto. split; auto. right. rewrite (norm2_zeros Z1), Htol in E1. cbn [andb] in E1.
        apply Nat.leb_gt in E1. lia. }
      destruct HI as [(hist & HL & HInv & Hn)|(Z1 & Z2 & _)].
      * assert (Eq : D (fn p) (fn q') = D (fn p) (Mv (fn p))) by (apply D_ext; auto).
        assert (S1 : Inv ((fn r, fn p) :: hist) (fn r') (fn p')).
        { apply step; auto. intros i Hi. rewrite Rr', HQ by auto. unfold alpha. now rewrite Eq. }
        destruct (eq_dec Hf (D (fn r') (fn r')) 0) as [E0|E0].
        -- right. assert (Z1 : zeros r') by (intros i Hi; apply (@Hdef _ (or_introl E0)); auto).
           apply ZZ; auto. intros i Hi. rewrite Rp', Z1 by auto.
           assert (B : be = 0).
           { apply (mul_zero Hex Hf) with (b := D (fn r) (fn r)); auto. unfold be. rewrite (div_mul Hf) by auto. auto. }
           rewrite B. ring.
        -- left. exists ((fn r, fn p) :: hist). cbn [length]. split; auto.
      * right.
        assert (Zq : zeros q') by (intros i Hi; rewrite HQ by auto; unfold mv;
          rewrite (@sum_ext F SF n _ (fun _ => 0)); [apply (sum_zero Hex)|intros j Hj; rewrite Z2 by auto; ring]).
        assert (Z1' : zeros r') by (intros i Hi; rewrite Rr', Zq, Z1 by auto; ring).
        apply ZZ; auto. intros i Hi. rewrite Rp', Z1', Z2 by auto. ring.
Qed.

Lemma cg_finite x b li lr : s_lib c = 0%nat -> length x = n -> length b = n ->
  exists o, cg_solve c A pc_none x b li lr = Ok o /\ o_code o = SUCCESS /\
    (o_iter o <= Nat.max 1 (Nat.max n (s_miniter c)))%nat.
Proof.
  intros Hl Hx Hb. unfold cg_solve. rewrite Hl. unfold monolish_cg. pose proof HA as (R1 & R2 & R3).
  rewrite R1, R2, Nat.eqb_refl. cbn [require_ bind]. unfold pc_none. cbn [bind].
  assert (Hz : length (repeat 0 n) = n) by now rewrite repeat_length.
  destruct (R3 x (repeat f0 n) Hx Hz) as (q & -> & Hq & HQ). cbn [bind].
  rewrite (@v_sub_ok F SF n) by auto. cbn [bind].
  set (r := zipw fsub b q). assert (Hr : length r = n) by (unfold r; now rewrite zipw_length).
  rewrite !(@v_copy_ok F n) by auto. cbn [bind]. rewrite !(@v_copy_ok F n) by auto. cbn [bind].
  apply cg_loop_fin; auto.
  destruct (eq_dec Hf (D (fn r) (fn r)) 0) as [E0|E0].
  - right. assert (Z : zeros r) by (intros i Hi; apply (@Hdef _ (or_introl E0)); auto). auto.
  - left. exists []. split; auto. split; auto. now apply Inv_init.
Qed.
End CG.
