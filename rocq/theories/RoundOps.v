(** * RoundOps: rounding of subtraction, division and short expressions; sums with a starting value. *)
From Coq Require Import ZArith Reals Psatz Floats.SpecFloat Permutation.
From Flocq Require Import Core BinarySingleNaN.
From Verif Require Import Base Scalar Spec SumFacts Mem MemSpec VecModel VecSpec Observe DenseModel CrsModel CrsObserve RoundSpec RoundProof RoundSum RoundOpsSpec.
Set Implicit Arguments.
Local Open Scope R_scope.

Section Ops.
Variables prec emax : Z.
Context (Hp : Prec_gt_0 prec) (He : Prec_lt_emax prec emax).
Notation num := (num prec emax).
Notation u := (uro prec).
Notation eta := (tiny prec emax).
Notation RN := (round radix2 (FLT_exp (3 - emax - prec) prec) ZnearestE).
Notation near := (near prec emax).

Lemma val_opp x : val (SFopp x) = - val x.
Proof. destruct x as [s|s| |s m e]; cbn [SFopp val]; try lra. destruct s; cbn [negb]; ring. Qed.
Lemma num_opp x : num x -> num (SFopp x).
Proof. destruct x; auto. Qed.
Lemma fin_opp x : finite (SFopp x) <-> finite x.
Proof. destruct x; cbn; tauto. Qed.

Lemma sub_equiv x y : SFsub prec emax (B2SF x) (B2SF y) = B2SF (Bminus (prec_gt_0_ := Hp) (prec_lt_emax_ := He) mode_NE x y).
Proof.
  destruct x as [sx|sx| |sx mx ex Bx], y as [sy|sy| |sy my ey By]; try reflexivity; cbn; try (destruct (Bool.eqb _ _); reflexivity).
  rewrite <- normalize_equiv. f_equal. unfold Fplus_naive. destruct sy; cbn [cond_Zopp negb]; ring.
Qed.
Lemma div_equiv x y : SFdiv prec emax (B2SF x) (B2SF y) = B2SF (Bdiv (prec_gt_0_ := Hp) (prec_lt_emax_ := He) mode_NE x y).
Proof.
  destruct x as [sx|sx| |sx mx ex Bx], y as [sy|sy| |sy my ey By]; try reflexivity. cbn [SFdiv B2SF Bdiv]. rewrite B2SF_SF2B.
  destruct (SFdiv_core_binary _ _ _ _ _ _) as ((mz & ez) & lz). apply aux_equiv.
Qed.
Lemma sub_num x y : num x -> num y -> num (SFsub prec emax x y).
Proof. intros Hx Hy. destruct (num_B Hx) as (a & ->), (num_B Hy) as (b & ->). rewrite sub_equiv. apply num_B2SF. Qed.
Lemma sub_val x y : num x -> num y -> finite (SFsub prec emax x y) ->
  finite x /\ finite y /\ val (SFsub prec emax x y) = RN (val x - val y).
Proof.
  intros Hx Hy. destruct (num_B Hx) as (a & ->), (num_B Hy) as (b & ->). rewrite sub_equiv, !finite_B, !val_B. intros F.
  assert (Fa : is_finite a = true /\ is_finite b = true).
  { destruct a as [sx|sx| |sx mx ex Bx], b as [sy|sy| |sy my ey By]; cbn in F; auto; try discriminate; destruct (Bool.eqb _ _); discriminate. }
  destruct Fa as (Fa & Fb). split; auto. split; auto.
  pose proof (Bminus_correct prec emax Hp He mode_NE a b Fa Fb) as H. destruct (Rlt_bool _ _).
  - destruct H as (H & _). exact H.
  - exfalso. destruct H as (H & _). apply finite_B in F. rewrite H in F. cbn in F. exact F.
Qed.
Lemma sub_finite x y : num x -> num y -> finite x -> finite y -> Rabs (RN (val x - val y)) < huge emax -> finite (SFsub prec emax x y).
Proof.
  intros Hx Hy. destruct (num_B Hx) as (a & ->), (num_B Hy) as (b & ->). rewrite sub_equiv, !finite_B, !val_B. intros Fa Fb L.
  pose proof (Bminus_correct prec emax Hp He mode_NE a b Fa Fb) as H. unfold huge in L. rewrite powerRZ_bpow in L. rewrite Rlt_bool_true in H by exact L. tauto.
Qed.
Lemma div_num x y : num x -> num y -> num (SFdiv prec emax x y).
Proof. intros Hx Hy. destruct (num_B Hx) as (a & ->), (num_B Hy) as (b & ->). rewrite div_equiv. apply num_B2SF. Qed.
Lemma div_val x y : num x -> num y -> val y <> 0 -> finite (SFdiv prec emax x y) ->
  finite x /\ val (SFdiv prec emax x y) = RN (val x / val y).
Proof.
  intros Hx Hy. destruct (num_B Hx) as (a & ->), (num_B Hy) as (b & ->). rewrite div_equiv, !finite_B, !val_B. intros N F.
  pose proof (Bdiv_correct prec emax Hp He mode_NE a b N) as H. destruct (Rlt_bool _ _).
  - destruct H as (H & H2 & _). rewrite F in H2. auto.
  - exfalso. apply finite_B in F. rewrite H in F. cbn in F. exact F.
Qed.
Lemma div_finite x y : num x -> num y -> val y <> 0 -> finite x -> Rabs (RN (val x / val y)) < huge emax -> finite (SFdiv prec emax x y).
Proof.
  intros Hx Hy. destruct (num_B Hx) as (a & ->), (num_B Hy) as (b & ->). rewrite div_equiv, !finite_B, !val_B. intros N Fa L.
  pose proof (Bdiv_correct prec emax Hp He mode_NE a b N) as H. unfold huge in L. rewrite powerRZ_bpow in L. rewrite Rlt_bool_true in H by exact L.
  destruct H as (_ & H & _). now rewrite H, Fa.
Qed.

Lemma abs_tri r s : Rabs r <= Rabs (r - s) + Rabs s.
Proof. replace r with ((r - s) + s) at 1 by ring. apply Rabs_triang. Qed.

Lemma near_add x y : num x -> num y -> near (SFadd prec emax x y) (finite x /\ finite y) (val x + val y) (err1 prec (val x + val y)) (lim1 prec (val x + val y)).
Proof.
  intros Hx Hy. pose proof (@RN_add prec emax Hp x y Hx Hy) as K. split; [now apply add_num|]. split.
  - intros F. destruct (add_val Hp He Hx Hy F) as (F1 & F2 & ->). split; auto.
  - intros (F1 & F2) L. apply add_finite; auto. eapply Rle_lt_trans; [|exact L]. unfold lim1.
    pose proof (abs_tri (RN (val x + val y)) (val x + val y)). lra.
Qed.
Lemma near_sub x y : num x -> num y -> near (SFsub prec emax x y) (finite x /\ finite y) (val x - val y) (err1 prec (val x - val y)) (lim1 prec (val x - val y)).
Proof.
  intros Hx Hy. pose proof (@RN_add prec emax Hp x (SFopp y) Hx (num_opp Hy)) as K. rewrite val_opp in K.
  replace (val x + - val y) with (val x - val y) in K by ring. split; [now apply sub_num|]. split.
  - intros F. destruct (sub_val Hx Hy F) as (F1 & F2 & ->). split; auto.
  - intros (F1 & F2) L. apply sub_finite; auto. eapply Rle_lt_trans; [|exact L]. unfold lim1.
    pose proof (abs_tri (RN (val x - val y)) (val x - val y)). lra.
Qed.
Lemma near_mul x y : num x -> num y ->
  near (SFmul prec emax x y) (finite x /\ finite y) (val x * val y) (err1u prec emax (val x * val y)) (lim1u prec emax (val x * val y)).
Proof.
  intros Hx Hy. pose proof (@RN_any prec emax Hp (val x * val y)) as K. split; [now apply mul_num|]. split.
  - intros F. destruct (mul_val Hp He Hx Hy F) as (F1 & F2 & ->). split; auto.
  - intros (F1 & F2) L. apply mul_finite; auto. eapply Rle_lt_trans; [|exact L]. unfold lim1u.
    pose proof (abs_tri (RN (val x * val y)) (val x * val y)). lra.
Qed.
Lemma near_div x y : num x -> num y -> val y <> 0 ->
  near (SFdiv prec emax x y) (finite x) (val x / val y) (err1u prec emax (val x / val y)) (lim1u prec emax (val x / val y)).
Proof.
  intros Hx Hy N. pose proof (@RN_any prec emax Hp (val x / val y)) as K. split; [now apply div_num|]. split.
  - intros F. destruct (div_val Hx Hy N F) as (F1 & ->). split; auto.
  - intros F1 L. apply div_finite; auto. eapply Rle_lt_trans; [|exact L]. unfold lim1u.
    pose proof (abs_tri (RN (val x / val y)) (val x / val y)). lra.
Qed.
Lemma near_weaken r ok ok' ex err err' lim lim' : near r ok ex err lim -> (ok <-> ok') -> err <= err' -> lim <= lim' -> near r ok' ex err' lim'.
Proof.
  intros (N & A & B) Ho He' Hl. split; auto. split.
  - intros F. destruct (A F). split; [tauto|lra].
  - intros O L. apply B; [tauto|lra].
Qed.

(** b + a*x *)
Lemma near_ax b a x : num b -> num a -> num x ->
  near (SFadd prec emax b (SFmul prec emax a x)) (finite b /\ finite a /\ finite x) (val b + val a * val x)
    (err_ax prec emax (val b) (val a * val x)) (lim_ax prec emax (val b) (val a * val x)).
Proof.
  intros Nb Na Nx. pose proof (u_pos prec) as U. pose proof (eta_pos prec emax) as T.
  destruct (near_mul Na Nx) as (N1 & A1 & B1). pose proof (@RN_any prec emax Hp (val a * val x)) as Q.
  set (w := SFmul prec emax a x) in *. pose proof (@RN_add prec emax Hp b w Nb N1) as P.
  unfold err1u, lim1u in *. pose proof (Rabs_pos (val b)) as Pb. pose proof (Rabs_pos (val a * val x)) as Px.
  assert (K : finite a /\ finite x -> finite w -> Rabs (RN (val b + val w) - (val b + val a * val x)) <= err_ax prec emax (val b) (val a * val x)).
  { intros O F. destruct (A1 F) as (_ & E). unfold err_ax, gam. cbn [pow].
    replace (RN (val b + val w) - (val b + val a * val x)) with ((RN (val b + val w) - (val b + val w)) + (val w - val a * val x)) by ring.
    eapply Rle_trans; [apply Rabs_triang|].
    assert (Rabs (val b + val w) <= Rabs (val b) + (u * Rabs (val a * val x) + eta) + Rabs (val a * val x)).
    { eapply Rle_trans; [apply Rabs_triang|]. pose proof (abs_tri (val w) (val a * val x)). lra. }
    assert (u * Rabs (val b + val w) <= u * (Rabs (val b) + (u * Rabs (val a * val x) + eta) + Rabs (val a * val x))) by (apply Rmult_le_compat_l; lra).
    lra. }
  split; [now apply add_num|]. split.
  - intros F. destruct (add_val Hp He Nb N1 F) as (F1 & F2 & ->). destruct (A1 F2) as (O & _). split; [tauto|]. auto.
  - intros (F1 & F2 & F3) L. unfold lim_ax in L.
    assert (G : 0 <= u * Rabs (val b) /\ 0 <= u * ((1 + u) * Rabs (val a * val x)) /\ 0 <= u * eta).
    { repeat split; apply Rmult_le_pos; try lra. apply Rmult_le_pos; lra. }
    assert (Fw : finite w) by (apply B1; [tauto|lra]). apply add_finite; auto. eapply Rle_lt_trans; [|exact L].
    pose proof (abs_tri (RN (val b + val w)) (val b + val a * val x)). specialize (K (conj F2 F3) Fw). unfold err_ax, gam in K. cbn [pow] in K.
    pose proof (Rabs_triang (val b) (val a * val x)). lra.
Qed.
Lemma add_comm_SF x y : SFadd prec emax x y = SFadd prec emax y x.
Proof.
  destruct x as [sx|sx| |sx mx ex], y as [sy|sy| |sy my ey]; cbn [SFadd]; auto; try (destruct sx, sy; reflexivity).
  rewrite (Z.min_comm ey ex). now rewrite Z.add_comm.
Qed.
Lemma mul_comm_SF x y : SFmul prec emax x y = SFmul prec emax y x.
Proof.
  destruct x as [sx|sx| |sx mx ex], y as [sy|sy| |sy my ey]; cbn [SFmul]; auto; try (destruct sx, sy; reflexivity).
  now rewrite (Pos.mul_comm mx my), (Z.add_comm ex ey), (Bool.xorb_comm sx sy).
Qed.
End Ops.
