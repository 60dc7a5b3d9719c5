(** * RoundProof: IEEE arithmetic of the standard library's SpecFloat, through Flocq. *)
From Coq Require Import ZArith Reals Psatz Floats.SpecFloat.
From Flocq Require Import Core BinarySingleNaN Relative Plus_error.
From Verif Require Import Base Scalar RoundSpec.
Set Implicit Arguments.
Local Open Scope R_scope.

Lemma powerRZ_bpow e : powerRZ 2 e = bpow radix2 e.
Proof. rewrite bpow_powerRZ. reflexivity. Qed.
Lemma val_SF2R x : val x = SF2R radix2 x.
Proof.
  destruct x as [s|s| |s m e]; cbn [val SF2R]; auto. unfold F2R. cbn [Fnum Fexp]. rewrite powerRZ_bpow.
  destruct s; cbn [cond_Zopp]; [change (Zneg m) with (- Zpos m)%Z; rewrite opp_IZR|]; ring.
Qed.
Lemma finite_SF x : finite x <-> is_finite_SF x = true.
Proof. destruct x; cbn; split; auto; try discriminate. Qed.

Section Ieee.
Variables prec emax : Z.
Context (Hp : Prec_gt_0 prec) (He : Prec_lt_emax prec emax).
Notation fe := (SpecFloat.fexp prec emax).
Notation em := (3 - emax - prec)%Z.
Notation RN := (round radix2 (FLT_exp em prec) ZnearestE).
Notation num := (num prec emax).
Notation u := (uro prec).
Notation eta := (tiny prec emax).

Lemma u_pos : 0 < u.
Proof. unfold uro. rewrite powerRZ_bpow. apply bpow_gt_0. Qed.
Lemma eta_pos : 0 < eta.
Proof. unfold tiny. rewrite powerRZ_bpow. apply bpow_gt_0. Qed.
Lemma u_half : / 2 * bpow radix2 (- prec + 1) = u.
Proof. unfold uro. rewrite powerRZ_bpow, bpow_plus. change (bpow radix2 1) with 2. field. Qed.
Lemma eta_half : / 2 * bpow radix2 em = eta.
Proof.
  unfold tiny. rewrite powerRZ_bpow. replace em with ((2 - emax - prec) + 1)%Z by ring. rewrite bpow_plus.
  change (bpow radix2 1) with 2. field.
Qed.

(** SpecFloat's operations are Flocq's *)
Lemma rne_equiv s m l : round_nearest_even m l = choice_mode mode_NE s m l.
Proof. destruct l as [|[| |]]; try reflexivity. cbn. unfold Round.cond_incr. now destruct (Z.even m). Qed.
Lemma aux_equiv sx mx ex lx : SpecFloat.binary_round_aux prec emax sx mx ex lx = binary_round_aux prec emax mode_NE sx mx ex lx.
Proof.
  unfold SpecFloat.binary_round_aux, binary_round_aux. set (r := shr_fexp _ _ _). destruct r as (r1 & r2). cbn.
  now rewrite (rne_equiv sx).
Qed.
Lemma round_equiv s m e : SpecFloat.binary_round prec emax s m e = binary_round prec emax mode_NE s m e.
Proof.
  unfold SpecFloat.binary_round, binary_round, shl_align_fexp. destruct (shl_align _ _ _) as (mz & ez). apply aux_equiv.
Qed.
Lemma normalize_equiv m e s : SpecFloat.binary_normalize prec emax m e s = B2SF (binary_normalize prec emax Hp He mode_NE m e s).
Proof. destruct m as [|p|p]; cbn; auto; rewrite B2SF_SF2B; apply round_equiv. Qed.
Lemma mul_equiv x y : SFmul prec emax (B2SF x) (B2SF y) = B2SF (Bmult (prec_gt_0_ := Hp) (prec_lt_emax_ := He) mode_NE x y).
Proof.
  destruct x as [sx|sx| |sx mx ex Bx], y as [sy|sy| |sy my ey By]; try reflexivity. cbn. rewrite B2SF_SF2B. apply aux_equiv.
Qed.
Lemma add_equiv x y : SFadd prec emax (B2SF x) (B2SF y) = B2SF (Bplus (prec_gt_0_ := Hp) (prec_lt_emax_ := He) mode_NE x y).
Proof.
  destruct x as [sx|sx| |sx mx ex Bx], y as [sy|sy| |sy my ey By]; try reflexivity; cbn; try (destruct (Bool.eqb _ _); reflexivity).
  apply normalize_equiv.
Qed.
Lemma sqrt_equiv x : SFsqrt prec emax (B2SF x) = B2SF (Bsqrt (prec_gt_0_ := Hp) (prec_lt_emax_ := He) mode_NE x).
Proof.
  destruct x as [sx|[|]| |[|] mx ex Bx]; try reflexivity. cbn. rewrite B2SF_SF2B.
  destruct (SFsqrt_core_binary _ _ _ _) as ((mz & ez) & lz). apply aux_equiv.
Qed.
Lemma num_B x : num x -> exists b : binary_float prec emax, x = B2SF b.
Proof. intros H. exists (SF2B x H). now rewrite B2SF_SF2B. Qed.
Lemma num_B2SF (b : binary_float prec emax) : num (B2SF b).
Proof. apply valid_binary_B2SF. Qed.
Lemma val_B (b : binary_float prec emax) : val (B2SF b) = B2R b.
Proof. now rewrite val_SF2R, SF2R_B2SF. Qed.
Lemma finite_B (b : binary_float prec emax) : finite (B2SF b) <-> is_finite b = true.
Proof. destruct b; cbn; split; auto; discriminate. Qed.

Lemma format x : num x -> generic_format radix2 (FLT_exp em prec) (val x).
Proof. intros H. destruct (num_B H) as (b & ->). rewrite val_B. exact (generic_format_B2R prec emax b). Qed.
Lemma RN_num x : num x -> RN (val x) = val x.
Proof. intros H. apply round_generic; auto with typeclass_instances. now apply format. Qed.

(** addition *)
Lemma add_num x y : num x -> num y -> num (SFadd prec emax x y).
Proof. intros Hx Hy. destruct (num_B Hx) as (a & ->), (num_B Hy) as (b & ->). rewrite add_equiv. apply num_B2SF. Qed.
Lemma add_val x y : num x -> num y -> finite (SFadd prec emax x y) ->
  finite x /\ finite y /\ val (SFadd prec emax x y) = RN (val x + val y).
Proof.
  intros Hx Hy. destruct (num_B Hx) as (a & ->), (num_B Hy) as (b & ->). rewrite add_equiv, !finite_B, !val_B. intros F.
  assert (Fa : is_finite a = true /\ is_finite b = true).
  { destruct a as [sx|sx| |sx mx ex Bx], b as [sy|sy| |sy my ey By]; cbn in F; auto; try discriminate; destruct (Bool.eqb _ _); discriminate. }
  destruct Fa as (Fa & Fb). split; auto. split; auto.
  pose proof (Bplus_correct prec emax Hp He mode_NE a b Fa Fb) as H. destruct (Rlt_bool _ _).
  - destruct H as (H & _). exact H.
  - exfalso. destruct H as (H & _). apply finite_B in F. rewrite H in F. cbn in F. exact F.
Qed.
Lemma add_finite x y : num x -> num y -> finite x -> finite y -> Rabs (RN (val x + val y)) < huge emax -> finite (SFadd prec emax x y).
Proof.
  intros Hx Hy. destruct (num_B Hx) as (a & ->), (num_B Hy) as (b & ->). rewrite add_equiv, !finite_B, !val_B. intros Fa Fb L.
  pose proof (Bplus_correct prec emax Hp He mode_NE a b Fa Fb) as H. unfold huge in L. rewrite powerRZ_bpow in L. rewrite Rlt_bool_true in H by exact L. tauto.
Qed.
Lemma RN_add x y : num x -> num y -> Rabs (RN (val x + val y) - (val x + val y)) <= u * Rabs (val x + val y).
Proof.
  intros Hx Hy. destruct (@FLT_plus_error_N_ex radix2 em prec Hp (fun x => negb (Z.even x)) (val x) (val y) (format Hx) (format Hy)) as (eps & H1 & H2).
  rewrite H2. replace ((val x + val y) * (1 + eps) - (val x + val y)) with (eps * (val x + val y)) by ring.
  rewrite Rabs_mult. apply Rmult_le_compat_r; [apply Rabs_pos|]. apply Rle_trans with (1 := H1).
  unfold u_ro. rewrite u_half. pose proof u_pos as U. apply Rmult_le_reg_r with (1 + u); [lra|]. unfold Rdiv. rewrite Rmult_assoc, Rinv_l by lra. nra.
Qed.

(** multiplication *)
Lemma mul_num x y : num x -> num y -> num (SFmul prec emax x y).
Proof. intros Hx Hy. destruct (num_B Hx) as (a & ->), (num_B Hy) as (b & ->). rewrite mul_equiv. apply num_B2SF. Qed.
Lemma mul_val x y : num x -> num y -> finite (SFmul prec emax x y) ->
  finite x /\ finite y /\ val (SFmul prec emax x y) = RN (val x * val y).
Proof.
  intros Hx Hy. destruct (num_B Hx) as (a & ->), (num_B Hy) as (b & ->). rewrite mul_equiv, !finite_B, !val_B. intros F.
  pose proof (Bmult_correct prec emax Hp He mode_NE a b) as H. destruct (Rlt_bool _ _).
  - destruct H as (H & H2 & _). rewrite F in H2. symmetry in H2. apply andb_prop in H2. destruct H2. auto.
  - exfalso. apply finite_B in F. rewrite H in F. cbn in F. exact F.
Qed.
Lemma mul_finite x y : num x -> num y -> finite x -> finite y -> Rabs (RN (val x * val y)) < huge emax -> finite (SFmul prec emax x y).
Proof.
  intros Hx Hy. destruct (num_B Hx) as (a & ->), (num_B Hy) as (b & ->). rewrite mul_equiv, !finite_B, !val_B. intros Fa Fb L.
  pose proof (Bmult_correct prec emax Hp He mode_NE a b) as H. unfold huge in L. rewrite powerRZ_bpow in L. rewrite Rlt_bool_true in H by exact L.
  destruct H as (_ & H & _). now rewrite H, Fa, Fb.
Qed.
Lemma RN_any r : Rabs (RN r - r) <= u * Rabs r + eta.
Proof.
  destruct (@error_N_FLT radix2 em prec Hp (fun x => negb (Z.even x)) r) as (eps & et & H1 & H2 & _ & H3).
  rewrite H3. replace (r * (1 + eps) + et - r) with (eps * r + et) by ring.
  apply Rle_trans with (1 := Rabs_triang _ _). rewrite Rabs_mult, <- u_half, <- eta_half.
  apply Rplus_le_compat; auto. apply Rmult_le_compat_r; [apply Rabs_pos|auto].
Qed.

(** square root *)
Lemma sqrt_num x : num x -> num (SFsqrt prec emax x).
Proof. intros Hx. destruct (num_B Hx) as (a & ->). rewrite sqrt_equiv. apply num_B2SF. Qed.
Lemma sqrt_val x : num x -> (finite (SFsqrt prec emax x) <-> finite x /\ (exists s, x = S754_zero s) \/ (exists m e, x = S754_finite false m e)) /\
  (finite (SFsqrt prec emax x) -> finite x /\ 0 <= val x /\ val (SFsqrt prec emax x) = RN (sqrt (val x))).
Proof.
  intros Hx. destruct (num_B Hx) as (a & ->). rewrite sqrt_equiv, !finite_B, !val_B.
  pose proof (Bsqrt_correct prec emax Hp He mode_NE a) as (H1 & H2 & _). rewrite H2. split.
  - destruct a as [s|s| |[|] m e B]; cbn; split; try discriminate; auto.
    + intros _. left. split; auto. eauto.
    + intros [(H & _)|(m & e & H)]; discriminate.
    + intros [(H & _)|(m & e & H)]; discriminate.
    + intros [(_ & s & H)|(m' & e' & H)]; discriminate.
    + intros _. right. eauto.
  - intros F. split; [|split].
    + destruct a as [s|s| |[|] m e B]; auto; discriminate.
    + destruct a as [s|s| |[|] m e B]; try discriminate; cbn [B2R]; try lra. apply F2R_ge_0. cbn. lia.
    + exact H1.
Qed.

(** integers *)
Lemma RN_int z : (Z.abs z <= 2 ^ prec)%Z -> RN (IZR z) = IZR z.
Proof.
  intros H. apply round_generic; auto with typeclass_instances.
  assert (P1 : (0 < prec)%Z) by exact Hp. assert (P2 : (prec < emax)%Z) by exact He.
  destruct (Z.eq_dec (Z.abs z) (2 ^ prec)) as [E|N].
  - assert (G : generic_format radix2 (FLT_exp em prec) (bpow radix2 prec)).
    { apply generic_format_FLT_bpow; auto. lia. }
    rewrite <- IZR_Zpower in G by lia. change (radix_val radix2) with 2%Z in G.
    destruct (Z.abs_spec z) as [(_ & K)|(_ & K)]; rewrite K in E.
    + now rewrite E.
    + replace z with (- 2 ^ prec)%Z by lia. rewrite opp_IZR. now apply generic_format_opp.
  - apply generic_format_FLT. exists (Float radix2 z 0); cbn [Fnum Fexp].
    + unfold F2R. cbn. ring.
    + change (radix_val radix2) with 2%Z. lia.
    + lia.
Qed.
End Ieee.
