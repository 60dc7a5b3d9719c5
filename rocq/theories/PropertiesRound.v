(** * PropertiesRound: C95-C97, floating-point arithmetic. *)
From Coq Require Import ZArith Reals Psatz Floats.SpecFloat Permutation.
From Flocq Require Import Core BinarySingleNaN.
From Verif Require Import Base Scalar Spec SumFacts Mem MemSpec VecModel VecSpec ReduceModel ReduceSpec ReduceProof
  CrsModel CrsObserve CrsProof CrsSimProof CrsBlasProof CrsMiscProof EigModel PropertiesCrs RoundSpec RoundProof RoundSum.
Set Implicit Arguments.
Local Open Scope R_scope.

Section C95.
Variables prec emax : Z.
Hypothesis Hfmt : (0 < prec < emax)%Z.
Notation num := (num prec emax).
Notation u := (uro prec).
Let Hp : Prec_gt_0 prec := proj1 Hfmt.
Let He : Prec_lt_emax prec emax := proj2 Hfmt.
#[local] Hint Extern 0 (Scalar spec_float) => exact (ieee prec emax) : typeclass_instances.
Notation SF := (ieee prec emax).

Definition cut (n : nat) (g : nat -> spec_float) (i : nat) : spec_float := if (i <? n)%nat then g i else S754_zero false.
Lemma cut_in n g i : (i < n)%nat -> cut n g i = g i.
Proof. intros H. unfold cut. destruct (Nat.ltb_spec i n); auto; lia. Qed.
Lemma cut_num n g : (forall i, (i < n)%nat -> num (g i)) -> forall i, num (cut n g i).
Proof. intros H i. unfold cut. destruct (Nat.ltb_spec i n); auto. reflexivity. Qed.
Lemma seq_lt n i : In i (seq 0 n) -> (i < n)%nat.
Proof. intros H. apply in_seq in H. lia. Qed.

Lemma red_exists n term post (m : mem spec_float) (f : nat -> spec_float) :
  (forall i, (i < n)%nat -> term m i = Ok (f i)) ->
  (exists v, red_val (@additive _ SF true n term post) m v) /\ ~ red_fault (@additive _ SF true n term post) m.
Proof.
  intros H. split.
  - eexists. apply (red_val_iff (@additive _ SF true n term post) m f _ H eq_refl). split; auto.
    exists [seq 0 n]. eexists. split; [apply dist_one|]. split; [apply combine_two|reflexivity].
  - exact (@no_fault _ (@additive _ SF true n term post) m f (S754_zero false) H eq_refl).
Qed.

(** sums of terms that are computed without rounding *)
Lemma plain_sum n term (m : mem spec_float) (g : nat -> spec_float) (ok : Prop) (t : nat -> R) :
  (forall i, (i < n)%nat -> num (g i)) -> (forall i, (i < n)%nat -> term m i = Ok (g i)) ->
  (forall i, (i < n)%nat -> val (g i) = t i) -> (ok <-> forall i, (i < n)%nat -> finite (g i)) ->
  fl_returns prec emax (@additive _ SF true n term (fun v => v)) m ok (rsum_n n t)
    (gam prec (n - 1) * rsum_n n (fun i => Rabs (t i))) ((1 + u) ^ (n - 1) * rsum_n n (fun i => Rabs (t i))).
Proof.
  intros Hg Ht Hv Hok. destruct (@red_exists n term (fun v => v) m g Ht) as (R1 & R2). split; auto. split; auto. intros v Hr.
  assert (Ht' : forall i, (i < n)%nat -> term m i = Ok (cut n g i)) by (intros i Hi; rewrite cut_in; auto).
  pose proof (@cut_num n g Hg) as Hn.
  destruct (@tree_red _ SF (cut n g) (appr prec emax (cut n g)) n term (fun v => v) m v) as (c & -> & H1 & H2 & H3); auto.
  - apply appr_nil.
  - intros i. now apply appr_one.
  - intros. now apply appr_add.
  - intros. eapply appr_perm; eauto.
  - rewrite seq_length in H2, H3. replace (Nat.pred n) with (n - 1)%nat in * by lia.
    rewrite (@rsum_ext _ (fun i => val (cut n g i)) t) in H2 by (intros i Hi; rewrite cut_in by (now apply seq_lt); apply Hv; now apply seq_lt).
    rewrite (@rsum_ext _ (fun i => Rabs (val (cut n g i))) (fun i => Rabs (t i))) in H2, H3
      by (intros i Hi; rewrite cut_in by (now apply seq_lt); f_equal; apply Hv; now apply seq_lt).
    assert (FE : (forall i, In i (seq 0 n) -> finite (cut n g i)) <-> ok).
    { rewrite Hok. split; intros K i Hi.
      - rewrite <- (@cut_in n g i Hi). apply K. apply in_seq. lia.
      - rewrite cut_in by (now apply seq_lt). apply K. now apply seq_lt. }
    rewrite FE in H2, H3. auto.
Qed.

Theorem C95_sum (m : mem spec_float) (x : arg) : arg_ok m x -> (forall i, (i < a_len x)%nat -> num (el m x i)) ->
  let n := a_len x in let t := rsum_n n (fun i => Rabs (val (el m x i))) in
  fl_returns prec emax (r_sum x) m (forall i, (i < n)%nat -> finite (el m x i))
    (rsum_n n (fun i => val (el m x i))) (gam prec (n - 1) * t) ((1 + u) ^ (n - 1) * t).
Proof.
  intros Hx Hn. cbn zeta. apply (@plain_sum (a_len x) _ m (el m x)); auto; [|tauto]. intros i Hi. now apply el_ld.
Qed.
Theorem C95_nrm1_asum (m : mem spec_float) (x : arg) : arg_ok m x -> (forall i, (i < a_len x)%nat -> num (el m x i)) ->
  let n := a_len x in let t := rsum_n n (fun i => Rabs (val (el m x i))) in
  fl_returns prec emax (r_nrm1 x) m (forall i, (i < n)%nat -> finite (el m x i)) t (gam prec (n - 1) * t) ((1 + u) ^ (n - 1) * t) /\
  fl_returns prec emax (r_asum x) m (forall i, (i < n)%nat -> finite (el m x i)) t (gam prec (n - 1) * t) ((1 + u) ^ (n - 1) * t).
Proof.
  intros Hx Hn. cbn zeta.
  assert (VA : forall s, val (SFabs s) = Rabs (val s)).
  { intros [s|s| |s k e]; cbn; try (now rewrite Rabs_R0). rewrite Rabs_mult.
    rewrite (Rabs_pos_eq (powerRZ 2 e)) by (rewrite powerRZ_bpow; apply bpow_ge_0). rewrite Rabs_mult.
    rewrite (Rabs_pos_eq (IZR (Z.pos k))) by (apply IZR_le; lia). f_equal. f_equal. destruct s; [rewrite Rabs_left by lra|rewrite Rabs_pos_eq by lra]; lra. }
  assert (NA : forall s, num s -> num (SFabs s)) by (intros [s|s| |s k e]; cbn; auto).
  assert (FA : forall s, finite s <-> finite (SFabs s)) by (intros [s|s| |s k e]; cbn; tauto).
  assert (EA : forall n, rsum_n n (fun i => Rabs (Rabs (val (el m x i)))) = rsum_n n (fun i => Rabs (val (el m x i)))).
  { intros n. apply rsum_ext. intros. apply Rabs_Rabsolu. }
  assert (K : fl_returns prec emax (r_nrm1 x) m (forall i, (i < a_len x)%nat -> finite (el m x i)) (rsum_n (a_len x) (fun i => Rabs (val (el m x i))))
     (gam prec (a_len x - 1) * rsum_n (a_len x) (fun i => Rabs (Rabs (val (el m x i))))) ((1 + u) ^ (a_len x - 1) * rsum_n (a_len x) (fun i => Rabs (Rabs (val (el m x i)))))).
  { apply (@plain_sum (a_len x) _ m (fun i => SFabs (el m x i))); auto.
    - intros i Hi. rewrite (el_ld Hx Hi). reflexivity.
    - split; intros K i Hi; specialize (K i Hi); [apply (proj1 (FA _))|apply (proj2 (FA _))]; exact K. }
  rewrite EA in K. split; exact K.
Qed.

(** sums of products *)
Lemma prod_sum n term (m : mem spec_float) (a b : nat -> spec_float) :
  (forall i, (i < n)%nat -> num (a i)) -> (forall i, (i < n)%nat -> num (b i)) ->
  (forall i, (i < n)%nat -> term m i = Ok (SFmul prec emax (a i) (b i))) ->
  forall post v, red_val (@additive _ SF true n term post) m v ->
  exists c, v = post c /\ num c /\
    (finite c -> (forall i, (i < n)%nat -> finite (a i) /\ finite (b i)) /\
       Rabs (val c - rsum_n n (fun i => val (a i) * val (b i))) <= prod_err prec emax n (rsum_n n (fun i => Rabs (val (a i) * val (b i))))) /\
    ((forall i, (i < n)%nat -> finite (a i) /\ finite (b i)) ->
       prod_lim prec emax n (rsum_n n (fun i => Rabs (val (a i) * val (b i)))) < huge emax -> finite c) /\
    ((forall i, (i < n)%nat -> a i = b i) -> finite c -> 0 <= val c).
Proof.
  intros Na Nb Ht post v Hr. pose proof (@cut_num n a Na) as Na'. pose proof (@cut_num n b Nb) as Nb'.
  pose (f := prods prec emax (cut n a) (cut n b)).
  assert (Ht' : forall i, (i < n)%nat -> term m i = Ok (f i)) by (intros i Hi; rewrite (Ht i Hi); unfold f, prods; now rewrite !cut_in).
  assert (Hf : forall i, num (f i)) by (intros i; apply prods_num; auto).
  pose (P := fun (I : list nat) c => appr prec emax f I c /\ ((forall i, (i < n)%nat -> a i = b i) -> finite c -> 0 <= val c)).
  assert (RP : forall r, 0 <= r -> 0 <= round radix2 (FLT_exp (3 - emax - prec) prec) ZnearestE r).
  { intros r Hr0. apply round_ge_generic; auto with typeclass_instances. apply generic_format_0. }
  destruct (@tree_red _ SF f P n term post m v) as (c & -> & K1 & K2); auto.
  - split; [apply appr_nil|]. intros _ _. cbn. lra.
  - intros i. split; [now apply appr_one|]. intros Eab Fi.
    destruct (@mul_val prec emax Hp He (cut n a i) (cut n b i) (Na' i) (Nb' i) Fi) as (_ & _ & E). unfold f, prods. rewrite E. apply RP.
    unfold cut. destruct (Nat.ltb_spec i n); [rewrite (Eab i H)|cbn; lra]. apply Rle_0_sqr.
  - intros I J c d (A1 & A2) (B1 & B2). split; [now apply appr_add|]. intros Eab Fi.
    destruct A1 as (A1 & _). destruct B1 as (B1 & _).
    destruct (@add_val prec emax Hp He c d A1 B1 Fi) as (Fc & Fd & E). cbn [fadd ieee]. rewrite E. apply RP.
    specialize (A2 Eab Fc). specialize (B2 Eab Fd). lra.
  - intros I J c PIJ (A1 & A2). split; auto. eapply appr_perm; eauto.
  - exists c. split; auto. destruct (@dot_appr prec emax Hp He nat (cut n a) (cut n b) Na' Nb' (seq 0 n) c K1) as (D1 & D2 & D3).
    split; auto. rewrite seq_length in D2, D3.
    assert (C2 : forall i, In i (seq 0 n) -> cut n a i = a i /\ cut n b i = b i) by (intros i Hi; rewrite !cut_in by (now apply seq_lt); auto).
    rewrite (@rsum_ext _ (fun i => val (cut n a i) * val (cut n b i)) (fun i => val (a i) * val (b i))) in D2 by (intros i Hi; destruct (C2 i Hi) as (-> & ->); reflexivity).
    rewrite (@rsum_ext _ (fun i => Rabs (val (cut n a i) * val (cut n b i))) (fun i => Rabs (val (a i) * val (b i)))) in D2, D3 by (intros i Hi; destruct (C2 i Hi) as (-> & ->); reflexivity).
    assert (FE : (forall i, In i (seq 0 n) -> finite (cut n a i) /\ finite (cut n b i)) <-> forall i, (i < n)%nat -> finite (a i) /\ finite (b i)).
    { split; intros K i Hi.
      - rewrite <- (@cut_in n a i Hi), <- (@cut_in n b i Hi). apply K. apply in_seq. lia.
      - destruct (C2 i Hi) as (-> & ->). apply K. now apply seq_lt. }
    rewrite FE in D2, D3. auto.
Qed.

Theorem C95_dot (m : mem spec_float) (x y : arg) : arg_ok m x -> arg_ok m y -> a_len x = a_len y ->
  (forall i, (i < a_len x)%nat -> num (el m x i) /\ num (el m y i)) ->
  let n := a_len x in let t := rsum_n n (fun i => Rabs (val (el m x i) * val (el m y i))) in
  fl_returns prec emax (r_dot x y) m (forall i, (i < n)%nat -> finite (el m x i) /\ finite (el m y i))
    (rsum_n n (fun i => val (el m x i) * val (el m y i))) (prod_err prec emax n t) (prod_lim prec emax n t).
Proof.
  intros Hx Hy Hl Hn. cbn zeta. unfold r_dot. assert (SY : same2 x y = true) by (unfold same2; now apply Nat.eqb_eq). rewrite SY.
  assert (Ht : forall i, (i < a_len x)%nat -> (a <- ld m (padd (a_ptr x) i) ;; b <- ld m (padd (a_ptr y) i) ;; Ok (@fmul _ SF a b)) = Ok (SFmul prec emax (el m x i) (el m y i))).
  { intros i Hi. rewrite (el_ld Hx Hi). cbn [bind]. rewrite el_ld by (auto; lia). reflexivity. }
  pose (tm := fun (m : mem spec_float) i => a <- ld m (padd (a_ptr x) i) ;; b <- ld m (padd (a_ptr y) i) ;; Ok (@fmul _ SF a b)).
  destruct (@red_exists _ tm (fun v => v) m (fun i => SFmul prec emax (el m x i) (el m y i)) Ht) as (R1 & R2). split; auto. split; auto. intros v Hr.
  destruct (@prod_sum (a_len x) tm m (el m x) (el m y)) with (post := fun v : spec_float => v) (v := v) as (c & -> & K1 & K2 & K3 & _); auto;
    try (intros i Hi; now apply Hn).
Qed.

Lemma sqrt_close s c g z : 0 <= s -> 0 <= c -> 0 <= g -> 0 <= z -> Rabs (c - s) <= g * s + z -> Rabs (sqrt c - sqrt s) <= g * sqrt s + sqrt z.
Proof.
  intros Hs Hc Hg Hz H.
  assert (B : c <= (1 + g) * s + z /\ (1 - g) * s <= c + z).
  { revert H. unfold Rabs. destruct (Rcase_abs _); intros; split; lra. }
  destruct B as (B1 & B2).
  pose proof (sqrt_pos s). pose proof (sqrt_pos c). pose proof (sqrt_pos z).
  assert (ES : forall a b, 0 <= a -> 0 <= b -> sqrt (a + b) <= sqrt a + sqrt b).
  { intros a b Ha Hb. pose proof (sqrt_pos a). pose proof (sqrt_pos b).
    rewrite <- (sqrt_Rsqr (sqrt a + sqrt b)) by lra. apply sqrt_le_1; [lra|apply Rle_0_sqr|]. unfold Rsqr.
    pose proof (sqrt_sqrt a Ha). pose proof (sqrt_sqrt b Hb). nra. }
  assert (U1 : sqrt c <= (1 + g) * sqrt s + sqrt z).
  { apply Rle_trans with (sqrt ((1 + g) * s + z)); [apply sqrt_le_1; nra|].
    eapply Rle_trans; [apply ES; nra|]. apply Rplus_le_compat_r.
    rewrite <- (sqrt_Rsqr ((1 + g) * sqrt s)) by nra. apply sqrt_le_1; [nra|apply Rle_0_sqr|].
    unfold Rsqr. pose proof (sqrt_sqrt s Hs). nra. }
  assert (U2 : sqrt s - sqrt c <= g * sqrt s + sqrt z).
  { destruct (Rle_dec 1 g) as [G|G]; [nra|].
    assert (sqrt ((1 - g) * s) <= sqrt c + sqrt z) by (eapply Rle_trans; [apply sqrt_le_1; [nra| |exact B2]; lra|apply ES; auto]).
    assert ((1 - g) * sqrt s <= sqrt ((1 - g) * s)).
    { rewrite <- (sqrt_Rsqr ((1 - g) * sqrt s)) by nra. apply sqrt_le_1; [apply Rle_0_sqr|nra|]. unfold Rsqr. pose proof (sqrt_sqrt s Hs) as Q.
      replace ((1 - g) * sqrt s * ((1 - g) * sqrt s)) with ((1 - g) * ((1 - g) * (sqrt s * sqrt s))) by ring. rewrite Q.
      assert (0 <= g * s * (1 - g)) by (apply Rmult_le_pos; nra). nra. }
    lra. }
  apply Rabs_le. lra.
Qed.

Theorem C95_nrm2 (m : mem spec_float) (x : arg) : arg_ok m x -> (forall i, (i < a_len x)%nat -> num (el m x i)) ->
  let n := a_len x in let s := rsum_n n (fun i => val (el m x i) * val (el m x i)) in
  fl_returns prec emax (r_nrm2 x) m (forall i, (i < n)%nat -> finite (el m x i)) (sqrt s)
    (gam prec (n + 1) * sqrt s + (1 + u) * sqrt (INR n * (1 + u) ^ Nat.pred n * tiny prec emax) + tiny prec emax) (prod_lim prec emax n s).
Proof.
  intros Hx Hn. cbn zeta.
  pose (tm := fun (m : mem spec_float) i => a <- ld m (padd (a_ptr x) i) ;; b <- ld m (padd (a_ptr x) i) ;; Ok (@fmul _ SF a b)).
  assert (Ht : forall i, (i < a_len x)%nat -> tm m i = Ok (SFmul prec emax (el m x i) (el m x i))).
  { intros i Hi. unfold tm. rewrite (el_ld Hx Hi). reflexivity. }
  destruct (@red_exists _ tm (SFsqrt prec emax) m _ Ht) as (R1 & R2). split; auto. split; auto. intros v Hr.
  destruct (@prod_sum (a_len x) tm m (el m x) (el m x)) with (post := SFsqrt prec emax) (v := v) as (c & -> & K1 & K2 & K3 & K4); auto.
  set (n := a_len x) in *. set (s := rsum_n n (fun i => val (el m x i) * val (el m x i))) in *.
  assert (ES : rsum_n n (fun i => Rabs (val (el m x i) * val (el m x i))) = s).
  { apply rsum_ext. intros. apply Rabs_pos_eq, Rle_0_sqr. }
  rewrite ES in *. assert (SP : 0 <= s) by (apply rsum_pos; intros; apply Rle_0_sqr).
  destruct (@sqrt_val prec emax Hp He c K1) as (Q1 & Q2). pose proof (u_pos prec) as U. pose proof (eta_pos prec emax) as N.
  assert (FE : (forall i, (i < n)%nat -> finite (el m x i) /\ finite (el m x i)) <-> forall i, (i < n)%nat -> finite (el m x i))
    by (split; intros K i Hi; specialize (K i Hi); tauto).
  split; [now apply sqrt_num|]. split.
  - intros F. destruct (Q2 F) as (Fc & Pc & Ev). destruct (K2 Fc) as (G1 & G2). split; [exact (proj1 FE G1)|].
    unfold prod_err in G2. set (z := INR n * (1 + u) ^ Nat.pred n * tiny prec emax) in *.
    assert (ZP : 0 <= z) by (unfold z; apply Rmult_le_pos; [apply Rmult_le_pos; [apply pos_INR|pose proof (@pow_u_ge prec (Nat.pred n)); lra]|lra]).
    assert (GP : 0 <= gam prec n) by (unfold gam; pose proof (@pow_u_ge prec n); lra).
    pose proof (@sqrt_close s (val c) (gam prec n) z SP Pc GP ZP G2) as C1. rewrite Ev.
    pose proof (@RN_any prec emax Hp (sqrt (val c))) as C2. rewrite (Rabs_pos_eq (sqrt (val c))) in C2 by apply sqrt_pos.
    set (r := round _ _ _ _) in *.
    assert (EG : gam prec (n + 1) = gam prec n + u * (1 + gam prec n)) by (unfold gam; rewrite pow_add; cbn; ring).
    rewrite EG. replace (r - sqrt s) with ((r - sqrt (val c)) + (sqrt (val c) - sqrt s)) by ring.
    eapply Rle_trans; [apply Rabs_triang|]. pose proof (sqrt_pos s). pose proof (sqrt_pos z).
    assert (sqrt (val c) <= (1 + gam prec n) * sqrt s + sqrt z) by (revert C1; unfold Rabs; destruct (Rcase_abs _); intros; lra).
    assert (u * sqrt (val c) <= u * ((1 + gam prec n) * sqrt s + sqrt z)) by (apply Rmult_le_compat_l; lra). lra.
  - intros F L. pose proof (proj2 FE F) as F2. assert (Fc : finite c) by (apply K3; auto). apply Q1. specialize (K4 (fun i Hi => eq_refl) Fc).
    destruct c as [sc|sc| |[|] mc ec]; cbn in Fc; try contradiction; [left; split; eauto| |right; eauto]. exfalso.
    cbn [val] in K4. assert (0 < powerRZ 2 ec) by (rewrite powerRZ_bpow; apply bpow_gt_0). assert (0 < IZR (Z.pos mc)) by (apply IZR_lt; lia). nra.
Qed.

(** the usual form of the constant *)
Theorem C95_gamma k : INR k * u < 1 -> gam prec k <= INR k * u / (1 - INR k * u).
Proof.
  intros H. pose proof (u_pos prec) as U. unfold gam.
  assert (B : forall k, INR k * u < 1 -> (1 + u) ^ k * (1 - INR k * u) <= 1).
  { clear k H. induction k as [|k IH]; intros H; [cbn; lra|]. rewrite S_INR in *. pose proof (pos_INR k).
    assert (H1 : INR k * u < 1) by nra. specialize (IH H1). cbn [pow].
    pose proof (@pow_u_ge prec k) as W. set (w := (1 + u) ^ k) in *.
    replace ((1 + u) * w * (1 - (INR k + 1) * u)) with (w * (1 - INR k * u) - w * (u * u * (INR k + 1))) by ring.
    assert (0 <= w * (u * u * (INR k + 1))) by (apply Rmult_le_pos; [lra|apply Rmult_le_pos; nra]). lra. }
  specialize (B k H). assert (P : 0 < 1 - INR k * u) by lra.
  apply Rmult_le_reg_r with (1 - INR k * u); auto. unfold Rdiv. rewrite Rmult_assoc, Rinv_l by lra. lra.
Qed.

(** two runs (different thread counts, different schedules) of the same call *)
Theorem C95_schedules (k : reduction) m ok ex err lim v w : fl_returns prec emax k m ok ex err lim ->
  red_val k m v -> red_val k m w -> finite v -> finite w -> Rabs (val v - val w) <= 2 * err.
Proof.
  intros (_ & _ & H) Hv Hw Fv Fw. destruct (H v Hv) as (_ & A1 & _). destruct (H w Hw) as (_ & B1 & _).
  destruct (A1 Fv) as (_ & A2). destruct (B1 Fw) as (_ & B2). replace (val v - val w) with ((val v - ex) - (val w - ex)) by ring.
  unfold Rminus at 1. eapply Rle_trans; [apply Rabs_triang|]. rewrite Rabs_Ropp. lra.
Qed.

(** C96: sparse matrix-vector products *)
Definition clean (x : spec_float) : spec_float := if valid_binary prec emax x then x else S754_zero false.
Lemma clean_num x : num (clean x).
Proof. unfold clean. destruct (valid_binary prec emax x) eqn:E; [exact E|reflexivity]. Qed.
Lemma clean_id x : num x -> clean x = x.
Proof. intros H. unfold clean. now rewrite H. Qed.
Definition ea (p : nat * spec_float) := clean (snd p).
Definition eb (x : list spec_float) (p : nat * spec_float) := clean (fn x (fst p)).

Lemma fn_num x j : all_num prec emax x -> num (fn x j).
Proof.
  intros H. unfold fn. destruct (nth_in_or_default j x f0) as [Hi| ->]; [|reflexivity].
  unfold all_num in H. rewrite Forall_forall in H. now apply H.
Qed.
Lemma row_dot_clean l x : all_num prec emax (map snd l) -> all_num prec emax x ->
  row_dot l x = fold_left (fun a p => fadd a (prods prec emax ea (eb x) p)) l f0.
Proof.
  intros Hl Hx. unfold row_dot. generalize (@f0 _ SF). induction l as [|p l IH]; intros z; cbn [fold_left]; auto.
  inversion Hl; subst. rewrite IH by auto. unfold prods, ea, eb. now rewrite !clean_id by (auto using fn_num).
Qed.
Lemma row_dot_fl l x : all_num prec emax (map snd l) -> all_num prec emax x ->
  fl_prod prec emax (row_dot l x) (forall p, In p l -> finite (snd p) /\ finite (fn x (fst p))) (length l)
    (rsum (fun p => val (snd p) * at_ x (fst p)) l) (rsum (fun p => Rabs (val (snd p)) * Rabs (at_ x (fst p))) l).
Proof.
  intros Hl Hx. rewrite row_dot_clean by auto.
  assert (C : forall p, In p l -> ea p = snd p /\ eb x p = fn x (fst p)).
  { intros p Hi. unfold ea, eb. rewrite !clean_id; auto using fn_num. unfold all_num in Hl. rewrite Forall_forall in Hl. apply Hl. now apply in_map. }
  assert (N : forall p, num (prods prec emax ea (eb x) p)) by (intros p; apply (@prods_num prec emax Hp He _ ea (eb x)); intros; apply clean_num).
  assert (K : appr prec emax (prods prec emax ea (eb x)) l (fold_left (fun a p => fadd a (prods prec emax ea (eb x) p)) l f0)).
  { apply (@tree_list _ _ SF).
    - apply appr_nil.
    - intros i. now apply appr_one.
    - intros. now apply appr_add. }
  destruct (@dot_appr prec emax Hp He _ ea (eb x) (fun p => clean_num _) (fun p => clean_num _) l _ K) as (D1 & D2 & D3).
  set (r := fold_left _ l f0) in *.
  rewrite (@rsum_ext _ (fun i => val (ea i) * val (eb x i)) (fun p => val (snd p) * at_ x (fst p))) in D2 by (intros i Hi; destruct (C i Hi) as (-> & ->); reflexivity).
  rewrite (@rsum_ext _ (fun i => Rabs (val (ea i) * val (eb x i))) (fun p => Rabs (val (snd p)) * Rabs (at_ x (fst p)))) in D2, D3
    by (intros i Hi; destruct (C i Hi) as (-> & ->); apply Rabs_mult).
  split; auto. split.
  - intros F. destruct (D2 F) as (G1 & G2). split; auto. intros p Hi. destruct (C p Hi) as (<- & <-). auto.
  - intros F L. apply D3; auto. intros p Hi. destruct (C p Hi) as (-> & ->). auto.
Qed.

Lemma real_range M N g ts : @in_range spec_float M N ts -> @in_range R M N (real_entries g ts).
Proof. intros H. unfold in_range, real_entries in *. apply Forall_map. eapply Forall_impl; [|exact H]. intros t Ht. exact Ht. Qed.
Lemma filter_real g P ts : filter (fun t : nat * nat * R => P (fst t)) (real_entries g ts) =
  real_entries g (filter (fun t : nat * nat * spec_float => P (fst t)) ts).
Proof. unfold real_entries. induction ts as [|t ts IH]; cbn; auto. destruct (P (fst t)); cbn; now rewrite IH. Qed.
Lemma row_real g h (A : crs spec_float) i : crs_readable A -> (i < m_row A)%nat ->
  rmv (m_col A) (@summed R Rscalar (real_entries g (crs_ents A))) h i = rsum (fun p => g (val (snd p)) * h (fst p)) (crs_row A i).
Proof.
  intros (A' & Hs & W) Hi. unfold rmv, crs_ents. change (@crs_entries _ b64scalar A) with (@crs_entries _ SF A).
  pose proof Hs as (G1 & G2 & _). rewrite G2. rewrite (crs_sim_entries Hs), (crs_sim_row Hs) by auto.
  rewrite (mv_summed R_exact h i (real_range g (crs_in_range W))), wrow_filter.
  rewrite (filter_real g (fun t => Nat.eqb (fst t) i)). rewrite crs_entries_filter by lia. unfold real_entries. rewrite !fold_right_map. reflexivity.
Qed.
Lemma col_real g h (A : crs spec_float) j : crs_readable A ->
  rmv (m_row A) (fun j i => @summed R Rscalar (real_entries g (crs_ents A)) i j) h j = rsum (fun p => g (val (snd p)) * h (fst p)) (ent_col (crs_ents A) j).
Proof.
  intros (A' & Hs & W). unfold rmv, crs_ents. change (@crs_entries _ b64scalar A) with (@crs_entries _ SF A).
  pose proof Hs as (G1 & G2 & _). rewrite G1. rewrite (crs_sim_entries Hs).
  rewrite (mvT_summed R_exact h j (real_range g (crs_in_range W))), wcol_filter.
  rewrite (filter_real g (fun t => Nat.eqb (snd t) j)). unfold real_entries, ent_col, rsum. rewrite !fold_right_map. reflexivity.
Qed.
Lemma row_stored (A : crs spec_float) i : (i < m_row A)%nat -> all_num prec emax (stored A) -> all_num prec emax (map snd (crs_row A i)).
Proof.
  intros Hi H. unfold all_num, stored, crs_ents in *. rewrite Forall_forall in *. intros v Hv. apply in_map_iff in Hv. destruct Hv as (p & <- & Hp').
  apply H. apply in_map_iff. exists (i, fst p, snd p). split; auto. change (@crs_entries _ b64scalar A) with (@crs_entries _ SF A).
  unfold crs_entries. apply in_flat_map. exists i. split; [apply in_seq; lia|]. apply in_map_iff. exists p. auto.
Qed.
Lemma col_stored (A : crs spec_float) j : all_num prec emax (stored A) -> all_num prec emax (map snd (ent_col (crs_ents A) j)).
Proof.
  intros H. unfold all_num, stored, ent_col in *. rewrite map_map. cbn [snd]. rewrite Forall_forall in *. intros v Hv. apply in_map_iff in Hv. destruct Hv as (p & <- & Hp').
  apply filter_In in Hp'. apply H. apply in_map_iff. exists p. tauto.
Qed.

Theorem C96_crs_matvec (A : crs spec_float) (x y : list spec_float) :
  crs_readable A -> length x = m_col A -> length y = m_row A -> all_num prec emax (stored A) -> all_num prec emax x ->
  exists y', crs_matvec A x y = Ok y' /\ length y' = m_row A /\
    forall i, (i < m_row A)%nat ->
      fl_prod prec emax (nth i y' (S754_zero false)) (forall p, In p (crs_row A i) -> finite (snd p) /\ finite (fn x (fst p))) (row_cnt A i)
        (rmv (m_col A) (real_mat A) (at_ x) i) (rmv (m_col A) (abs_mat A) (fun j => Rabs (at_ x j)) i).
Proof.
  intros W Hx Hy NA NX. rewrite C11_crs_matvec by auto. eexists; split; [reflexivity|]. rewrite map_length, seq_length. split; auto. intros i Hi.
  rewrite nth_map_seq by auto. cbn [Nat.add]. unfold real_mat, abs_mat. rewrite !row_real by auto.
  apply row_dot_fl; auto. now apply row_stored.
Qed.
Theorem C96_crs_matvec_T (A : crs spec_float) (x y : list spec_float) :
  crs_readable A -> length x = m_row A -> length y = m_col A -> all_num prec emax (stored A) -> all_num prec emax x ->
  exists y', crs_matvec_T A x y = Ok y' /\ length y' = m_col A /\
    forall j, (j < m_col A)%nat ->
      fl_prod prec emax (nth j y' (S754_zero false)) (forall p, In p (ent_col (crs_ents A) j) -> finite (snd p) /\ finite (fn x (fst p))) (col_cnt A j)
        (rmv (m_row A) (fun j i => real_mat A i j) (at_ x) j) (rmv (m_row A) (fun j i => abs_mat A i j) (fun i => Rabs (at_ x i)) j).
Proof.
  intros W Hx Hy NA NX. rewrite C12_crs_matvec_T by auto. eexists; split; [reflexivity|]. rewrite map_length, seq_length. split; auto. intros j Hj.
  rewrite nth_map_seq by auto. cbn [Nat.add]. unfold real_mat, abs_mat. rewrite !col_real by auto.
  apply row_dot_fl; auto. now apply col_stored.
Qed.

(** C97: integer data *)
Lemma int_floor x : is_int x -> val x = IZR (Zfloor (val x)).
Proof. intros (_ & z & E). rewrite E. now rewrite Zfloor_IZR. Qed.
Lemma zsum_R {T} (z : T -> Z) (l : list T) : IZR (zsum z l) = rsum (fun i => IZR (z i)) l.
Proof. unfold zsum, rsum. induction l as [|a l IH]; cbn [fold_right]; auto. now rewrite plus_IZR, IH. Qed.
Lemma zabs_R {T} (z : T -> Z) (l : list T) : IZR (zabs z l) = rsum (fun i => Rabs (IZR (z i))) l.
Proof. unfold zabs, rsum. induction l as [|a l IH]; cbn [fold_right]; auto. now rewrite plus_IZR, IH, abs_IZR. Qed.
Lemma int_max_Z : int_max prec = IZR (2 ^ prec).
Proof. unfold int_max. rewrite powerRZ_bpow. rewrite <- (IZR_Zpower radix2) by lia. reflexivity. Qed.
Lemma zabs_in {T} (z : T -> Z) (l : list T) i : In i l -> (Z.abs (z i) <= zabs z l)%Z.
Proof.
  unfold zabs. induction l as [|a l IH]; cbn; [tauto|]. intros [ -> |H]; [|specialize (IH H); lia].
  pose proof (@zabs_pos T z l) as P. unfold zabs in P. lia.
Qed.

(** sums of integer terms, in any order and grouping *)
Lemma int_sum n term (m : mem spec_float) (g : nat -> spec_float) :
  (forall i, (i < n)%nat -> num (g i)) -> (forall i, (i < n)%nat -> term m i = Ok (g i)) ->
  (forall i, (i < n)%nat -> is_int (g i)) -> rsum_n n (fun i => Rabs (val (g i))) <= int_max prec ->
  fl_exact prec emax (@additive _ SF true n term (fun v => v)) m (rsum_n n (fun i => val (g i))).
Proof.
  intros Hg Ht Hi L. destruct (@red_exists n term (fun v => v) m g Ht) as (R1 & R2). split; auto. split; auto. intros v Hr.
  assert (Ht' : forall i, (i < n)%nat -> term m i = Ok (cut n g i)) by (intros i H; rewrite cut_in; auto).
  pose proof (@cut_num n g Hg) as Hn.
  assert (Hc : forall i, is_int (cut n g i)).
  { intros i. unfold cut. destruct (Nat.ltb_spec i n); auto. split; [exact I|]. exists 0%Z. reflexivity. }
  pose (z := fun i => Zfloor (val (cut n g i))).
  assert (Hz : forall i, finite (cut n g i) -> val (cut n g i) = IZR (z i)) by (intros i _; apply int_floor; auto).
  destruct (@tree_red _ SF (cut n g) (exact_int prec emax (cut n g) z) n term (fun v => v) m v) as (c & -> & H1 & H2); auto.
  - apply exact_nil.
  - intros i. now apply exact_one.
  - intros. now apply exact_add.
  - intros. eapply exact_perm; eauto.
  - split; auto.
    assert (E : forall i, In i (seq 0 n) -> val (cut n g i) = val (g i)) by (intros i H; rewrite cut_in; auto using seq_lt).
    destruct H2 as (F & V).
    + intros i _. apply Hc.
    + apply le_IZR. rewrite zabs_R, <- int_max_Z. eapply Rle_trans; [|exact L]. right. apply rsum_ext. intros i H. rewrite <- E by auto. f_equal. symmetry. apply Hz, Hc.
    + split; auto. rewrite V, zsum_R. apply rsum_ext. intros i H. rewrite <- E by auto. symmetry. apply Hz, Hc.
Qed.
Theorem C97_sum (m : mem spec_float) (x : arg) : arg_ok m x -> (forall i, (i < a_len x)%nat -> num (el m x i) /\ is_int (el m x i)) ->
  let n := a_len x in rsum_n n (fun i => Rabs (val (el m x i))) <= int_max prec ->
  fl_exact prec emax (r_sum x) m (rsum_n n (fun i => val (el m x i))).
Proof.
  intros Hx Hn. cbn zeta. intros L. apply (@int_sum (a_len x) _ m (el m x)); auto; try (intros i Hi; now apply Hn). intros i Hi. now apply el_ld.
Qed.

Lemma int_prod a b : num a -> num b -> is_int a -> is_int b -> Rabs (val a * val b) <= int_max prec ->
  num (SFmul prec emax a b) /\ is_int (SFmul prec emax a b) /\ val (SFmul prec emax a b) = val a * val b.
Proof.
  intros Na Nb Ia Ib L. split; [now apply mul_num|].
  destruct (@prods_int prec emax Hp He unit (fun _ => a) (fun _ => b) (fun _ => Na) (fun _ => Nb) (fun _ => Zfloor (val a)) (fun _ => Zfloor (val b))
    (fun _ _ => int_floor Ia) (fun _ _ => int_floor Ib) tt) as (F & V); [apply Ia|apply Ib| |].
  - apply le_IZR. rewrite <- int_max_Z, abs_IZR, mult_IZR, <- !int_floor by auto. exact L.
  - unfold prods in *. split; [split; eauto|]. rewrite V, mult_IZR, <- !int_floor by auto. reflexivity.
Qed.
Lemma rsum_in {T} (g : T -> R) l i : (forall j, In j l -> 0 <= g j) -> In i l -> g i <= rsum g l.
Proof.
  intros P. induction l as [|a l IH]; [intros []|]. unfold rsum. cbn [fold_right]. fold (rsum g l).
  assert (0 <= rsum g l) by (apply rsum_pos; intros; apply P; now right). pose proof (P a (or_introl eq_refl)).
  intros [ <- |H1]; [lra|]. assert (g i <= rsum g l) by (apply IH; auto; intros; apply P; now right). lra.
Qed.

Theorem C97_dot (m : mem spec_float) (x y : arg) : arg_ok m x -> arg_ok m y -> a_len x = a_len y ->
  (forall i, (i < a_len x)%nat -> num (el m x i) /\ num (el m y i) /\ is_int (el m x i) /\ is_int (el m y i)) ->
  let n := a_len x in rsum_n n (fun i => Rabs (val (el m x i) * val (el m y i))) <= int_max prec ->
  fl_exact prec emax (r_dot x y) m (rsum_n n (fun i => val (el m x i) * val (el m y i))).
Proof.
  intros Hx Hy Hl Hn. cbn zeta. intros L. unfold r_dot. assert (SY : same2 x y = true) by (unfold same2; now apply Nat.eqb_eq). rewrite SY.
  set (g := fun i => SFmul prec emax (el m x i) (el m y i)).
  assert (P : forall i, (i < a_len x)%nat -> num (g i) /\ is_int (g i) /\ val (g i) = val (el m x i) * val (el m y i)).
  { intros i Hi. destruct (Hn i Hi) as (N1 & N2 & I1 & I2). apply int_prod; auto. eapply Rle_trans; [|exact L].
    apply (@rsum_in _ (fun i => Rabs (val (el m x i) * val (el m y i)))); [intros; apply Rabs_pos|apply in_seq; lia]. }
  replace (rsum_n (a_len x) (fun i => val (el m x i) * val (el m y i))) with (rsum_n (a_len x) (fun i => val (g i)))
    by (apply rsum_ext; intros i Hi; apply P; now apply seq_lt).
  apply (@int_sum (a_len x) _ m g); try (intros i Hi; now apply P).
  - intros i Hi. rewrite (el_ld Hx Hi). cbn [bind]. rewrite el_ld by (auto; lia). reflexivity.
  - eapply Rle_trans; [|exact L]. right. apply rsum_ext. intros i Hi. f_equal. apply P. now apply seq_lt.
Qed.

Lemma row_dot_int l x : all_num prec emax (map snd l) -> all_num prec emax x ->
  (forall p, In p l -> is_int (snd p) /\ is_int (fn x (fst p))) -> rsum (fun p => Rabs (val (snd p)) * Rabs (at_ x (fst p))) l <= int_max prec ->
  num (row_dot l x) /\ finite (row_dot l x) /\ val (row_dot l x) = rsum (fun p => val (snd p) * at_ x (fst p)) l.
Proof.
  intros Hl Hx Hi L. unfold row_dot.
  assert (P : forall p, In p l -> num (SFmul prec emax (snd p) (fn x (fst p))) /\ is_int (SFmul prec emax (snd p) (fn x (fst p))) /\
    val (SFmul prec emax (snd p) (fn x (fst p))) = val (snd p) * at_ x (fst p)).
  { intros p Hp'. destruct (Hi p Hp') as (I1 & I2). unfold all_num in Hl. rewrite Forall_forall in Hl. apply int_prod; auto using fn_num.
    - apply Hl. now apply in_map.
    - rewrite Rabs_mult. eapply Rle_trans; [|exact L]. apply (@rsum_in _ (fun p => Rabs (val (snd p)) * Rabs (at_ x (fst p)))); auto.
      intros. apply Rmult_le_pos; apply Rabs_pos. }
  pose (f := fun p => let q := clean (SFmul prec emax (snd p) (fn x (fst p))) in if Req_EM_T (val q) (IZR (Zfloor (val q))) then q else S754_zero false).
  assert (Ef : forall p, In p l -> f p = SFmul prec emax (snd p) (fn x (fst p))).
  { intros p Hp'. destruct (P p Hp') as (P1 & P2 & _). unfold f. cbn zeta. rewrite clean_id by auto.
    destruct (Req_EM_T _ _) as [|N]; auto. exfalso. apply N. now apply int_floor. }
  assert (Nf : forall p, num (f p)) by (intros p; unfold f; cbn zeta; destruct (Req_EM_T _ _); [apply clean_num|reflexivity]).
  assert (Hz : forall p, finite (f p) -> val (f p) = IZR (Zfloor (val (f p)))).
  { intros p _. unfold f. cbn zeta. destruct (Req_EM_T _ _); auto. cbn [val]. now rewrite Zfloor_IZR. }
  assert (E : fold_left (fun t p => fadd t (fmul (snd p) (fn x (fst p)))) l f0 = fold_left (fun t p => fadd t (f p)) l f0).
  { generalize (@f0 _ SF). clear - Ef. induction l as [|p l IH]; intros z; cbn [fold_left]; auto. rewrite (Ef p) by (now left).
    apply IH. intros q Hq. apply Ef. now right. }
  rewrite E.
  assert (K : exact_int prec emax f (fun p => Zfloor (val (f p))) l (fold_left (fun t p => fadd t (f p)) l f0)).
  { apply (@tree_list _ _ SF).
    - apply exact_nil.
    - intros i. now apply exact_one.
    - intros. now apply exact_add. }
  destruct K as (K1 & K2). split; auto. destruct K2 as (F & V).
  - intros p Hp'. rewrite Ef by auto. apply P. auto.
  - apply le_IZR. rewrite zabs_R, <- int_max_Z. eapply Rle_trans; [|exact L]. right. apply rsum_ext. intros p Hp'.
    rewrite <- Rabs_mult. destruct (P p Hp') as (_ & P2 & <-). rewrite Ef by auto. f_equal. symmetry. now apply int_floor.
  - split; auto. rewrite V, zsum_R. apply rsum_ext. intros p Hp'. destruct (P p Hp') as (_ & P2 & <-). rewrite Ef by auto. symmetry. now apply int_floor.
Qed.

Theorem C97_crs_matvec (A : crs spec_float) (x y : list spec_float) :
  crs_readable A -> length x = m_col A -> length y = m_row A -> all_num prec emax (stored A) -> all_num prec emax x ->
  (forall v, In v (stored A) -> is_int v) -> (forall v, In v x -> is_int v) ->
  (forall i, (i < m_row A)%nat -> rmv (m_col A) (abs_mat A) (fun j => Rabs (at_ x j)) i <= int_max prec) ->
  exists y', crs_matvec A x y = Ok y' /\ length y' = m_row A /\
    forall i, (i < m_row A)%nat -> num (nth i y' (S754_zero false)) /\ finite (nth i y' (S754_zero false)) /\ at_ y' i = rmv (m_col A) (real_mat A) (at_ x) i.
Proof.
  intros W Hx Hy NA NX IA IX L. rewrite C11_crs_matvec by auto. eexists; split; [reflexivity|]. rewrite map_length, seq_length. split; auto. intros i Hi.
  specialize (L i Hi). unfold at_ at 1. rewrite nth_map_seq by auto. cbn [Nat.add]. unfold real_mat, abs_mat in *. rewrite row_real in * by auto.
  apply row_dot_int; auto; [now apply row_stored|]. intros p Hp'. split.
  - apply IA. unfold stored, crs_ents. apply in_map_iff. exists (i, fst p, snd p). split; auto. change (@crs_entries _ b64scalar A) with (@crs_entries _ SF A).
    unfold crs_entries. apply in_flat_map. exists i. split; [apply in_seq; lia|]. apply in_map_iff. exists p. auto.
  - unfold fn. destruct (nth_in_or_default (fst p) x f0) as [Hj| ->]; auto. split; [exact I|exists 0%Z; reflexivity].
Qed.
Theorem C97_crs_matvec_T (A : crs spec_float) (x y : list spec_float) :
  crs_readable A -> length x = m_row A -> length y = m_col A -> all_num prec emax (stored A) -> all_num prec emax x ->
  (forall v, In v (stored A) -> is_int v) -> (forall v, In v x -> is_int v) ->
  (forall j, (j < m_col A)%nat -> rmv (m_row A) (fun j i => abs_mat A i j) (fun i => Rabs (at_ x i)) j <= int_max prec) ->
  exists y', crs_matvec_T A x y = Ok y' /\ length y' = m_col A /\
    forall j, (j < m_col A)%nat -> num (nth j y' (S754_zero false)) /\ finite (nth j y' (S754_zero false)) /\
      at_ y' j = rmv (m_row A) (fun j i => real_mat A i j) (at_ x) j.
Proof.
  intros W Hx Hy NA NX IA IX L. rewrite C12_crs_matvec_T by auto. eexists; split; [reflexivity|]. rewrite map_length, seq_length. split; auto. intros j Hj.
  specialize (L j Hj). unfold at_ at 1. rewrite nth_map_seq by auto. cbn [Nat.add]. unfold real_mat, abs_mat in *. rewrite col_real in * by auto.
  apply row_dot_int; auto; [now apply col_stored|]. intros p Hp'. split.
  - apply IA. unfold stored. unfold ent_col in Hp'. apply in_map_iff in Hp'. destruct Hp' as (t & <- & Ht). apply filter_In in Ht. cbn [snd]. apply in_map. tauto.
  - unfold fn. destruct (nth_in_or_default (fst p) x f0) as [Hk| ->]; auto. split; [exact I|exists 0%Z; reflexivity].
Qed.
End C95.

(** double and float are instances: the arithmetic of all other theorems about [b64scalar] *)
Theorem C95_double (m : mem spec_float) (x y : arg) : arg_ok m x -> arg_ok m y -> a_len x = a_len y ->
  (forall i, (i < a_len x)%nat -> num 53 1024 (@el _ b64scalar m x i) /\ num 53 1024 (@el _ b64scalar m y i)) ->
  forall v, red_val (@r_dot _ b64scalar x y) m v -> finite v ->
    let n := a_len x in
    Rabs (val v - rsum_n n (fun i => val (@el _ b64scalar m x i) * val (@el _ b64scalar m y i))) <=
    ((1 + powerRZ 2 (-53)) ^ n - 1) * rsum_n n (fun i => Rabs (val (@el _ b64scalar m x i) * val (@el _ b64scalar m y i)))
      + INR n * (1 + powerRZ 2 (-53)) ^ Nat.pred n * powerRZ 2 (-1075).
Proof.
  intros Hx Hy Hl Hn v Hr F. destruct (@C95_dot 53 1024 ltac:(lia) m x y Hx Hy Hl Hn) as (_ & _ & H). destruct (H v Hr) as (_ & H1 & _). apply H1. exact F.
Qed.
Theorem C95_float (m : mem spec_float) (x y : arg) : arg_ok m x -> arg_ok m y -> a_len x = a_len y ->
  (forall i, (i < a_len x)%nat -> num 24 128 (@el _ b32scalar m x i) /\ num 24 128 (@el _ b32scalar m y i)) ->
  forall v, red_val (@r_dot _ b32scalar x y) m v -> finite v ->
    let n := a_len x in
    Rabs (val v - rsum_n n (fun i => val (@el _ b32scalar m x i) * val (@el _ b32scalar m y i))) <=
    ((1 + powerRZ 2 (-24)) ^ n - 1) * rsum_n n (fun i => Rabs (val (@el _ b32scalar m x i) * val (@el _ b32scalar m y i)))
      + INR n * (1 + powerRZ 2 (-24)) ^ Nat.pred n * powerRZ 2 (-150).
Proof.
  intros Hx Hy Hl Hn v Hr F. destruct (@C95_dot 24 128 ltac:(lia) m x y Hx Hy Hl Hn) as (_ & _ & H). destruct (H v Hr) as (_ & H1 & _). apply H1. exact F.
Qed.
(** the spec's numbers are what they should be *)
Example RoundSpec_check : val (b64_of_Z 3) = 3 /\ val (@f1 _ b32scalar) = 1 /\ num 53 1024 (b64_of_Z 3) /\
  finite (b64_of_Z (-5)) /\ val (b64_of_Z (-5)) = -5 /\ ~ finite (S754_infinity true) /\ ~ num 24 128 (b64_of_Z (2 ^ 24 + 1)) /\
  @fadd _ b64scalar (b64_of_Z (2 ^ 53)) (b64_of_Z 1) = b64_of_Z (2 ^ 53).
Proof.
  assert (P : forall z w, val z = w -> val z = w) by auto.
  split; [|split; [|split; [|split; [|split; [|split; [|split]]]]]]; try (vm_compute; reflexivity); try (vm_compute; tauto); try (vm_compute; discriminate).
  - change (val (b64_of_Z 3)) with (1 * IZR 6755399441055744 * powerRZ 2 (-51)). rewrite powerRZ_bpow. cbn. lra.
  - change (val (@f1 _ b32scalar)) with (1 * IZR 8388608 * powerRZ 2 (-23)). rewrite powerRZ_bpow. cbn. lra.
  - change (val (b64_of_Z (-5))) with (-1 * IZR 5629499534213120 * powerRZ 2 (-50)). rewrite powerRZ_bpow. cbn. lra.
Qed.
(** the theorems apply: double vectors (1, -2, 3) and (4, 5, 6) *)
Example C95_example : let m : mem spec_float := [map b64_of_Z [1; -2; 3; 4; 5; 6]%Z] in let x := mkArg (0, 0)%nat 3 in let y := mkArg (0, 3)%nat 3 in
  arg_ok m x /\ arg_ok m y /\ (forall i, (i < 3)%nat -> num 53 1024 (@el _ b64scalar m x i) /\ num 53 1024 (@el _ b64scalar m y i)) /\
  (forall i, (i < 3)%nat -> finite (@el _ b64scalar m x i) /\ finite (@el _ b64scalar m y i)) /\
  red_val (@r_dot _ b64scalar x y) m (b64_of_Z 12).
Proof.
  intros m x y. split; [intros i Hi; unfold valid; cbn in *; lia|]. split; [intros i Hi; unfold valid; cbn in *; lia|].
  split; [intros i Hi; destruct i as [|[|[|i]]]; try lia; split; vm_compute; reflexivity|].
  split; [intros i Hi; destruct i as [|[|[|i]]]; try lia; split; vm_compute; exact I|].
  split; [reflexivity|]. exists (S754_zero false), [[0; 2]; [1]]%nat, [b64_of_Z 22; b64_of_Z (-10)], (b64_of_Z 12).
  split; [reflexivity|]. split; [unfold distribution; cbn; apply perm_skip, perm_swap|].
  split; [constructor; [vm_compute; reflexivity|constructor; [vm_compute; reflexivity|constructor]]|].
  split; [|reflexivity].
  replace (b64_of_Z 12) with (@fadd _ b64scalar (@fadd _ b64scalar (S754_zero false) (b64_of_Z 22)) (b64_of_Z (-10))) by (vm_compute; reflexivity).
  eapply comb_op with (l1 := [S754_zero false; b64_of_Z 22]) (l2 := [b64_of_Z (-10)]); [apply combine_two|constructor|cbn; reflexivity].
Qed.
(** C96/C97: the CRS matrix [1 0 2; 0 3 0] in double *)
Example C97_example : exists A, @crs_of_arrays _ b64scalar one_thread 2 3 3 [0;2;3]%nat [0;2;1]%nat (map b64_of_Z [1;2;3]%Z) = Ok A /\ @crs_readable _ A /\
  all_num 53 1024 (stored A) /\ (forall v, In v (stored A) -> is_int v) /\ row_cnt A 0 = 2%nat /\ col_cnt A 1 = 1%nat /\
  @crs_matvec _ b64scalar A (map b64_of_Z [10;20;30]%Z) (map b64_of_Z [7;7]%Z) = Ok (map b64_of_Z [70; 60]%Z).
Proof.
  eexists. split; [vm_compute; reflexivity|]. split.
  { apply (@crs_ok_readable _). unfold crs_ok, rpn, cin; cbn. repeat split; auto; intros i Hi; destruct i as [|[|[|i]]]; cbn; lia. }
  split; [repeat constructor|]. split.
  { intros v Hv. unfold stored, crs_ents in Hv. cbn in Hv. destruct Hv as [ <- |[ <- |[ <- |[]]]]; (split; [exact I|]); [exists 1%Z|exists 2%Z|exists 3%Z]; cbn [val]; rewrite powerRZ_bpow; cbn; lra. }
  split; [reflexivity|]. split; [reflexivity|]. vm_compute. reflexivity.
Qed.
Print Assumptions C95_sum.
Print Assumptions C95_nrm1_asum.
Print Assumptions C95_dot.
Print Assumptions C95_nrm2.
Print Assumptions C95_gamma.
Print Assumptions C95_schedules.
Print Assumptions C95_double.
Print Assumptions C95_float.
Print Assumptions C96_crs_matvec.
Print Assumptions C96_crs_matvec_T.
Print Assumptions C97_sum.
Print Assumptions C97_dot.
Print Assumptions C97_crs_matvec.
Print Assumptions C97_crs_matvec_T.
