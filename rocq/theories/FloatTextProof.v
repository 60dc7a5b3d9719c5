(** * FloatTextProof: a finite double or float written by the library reads back as the same number. *)
From Coq Require Import Ascii String NArith ZArith Reals SpecFloat Lra.
From Flocq Require Import Core Calc.Round IEEE754.BinarySingleNaN.
From Verif Require Import Base Scalar IoModel IoProof FloatText.
Import ListNotations.
Set Implicit Arguments.
Local Open Scope list_scope.

(** ** the numerical core: a real close enough to a number of the format rounds to it *)
Section Near.
Variables prec emax : Z.
Context (Hp : Prec_gt_0 prec) (He : Prec_lt_emax prec emax).
Let emin := (3 - emax - prec)%Z.
Let fexp := FLT_exp emin prec.
Let Vfexp : Valid_exp fexp := FLT_exp_valid emin prec.
Local Existing Instance Vfexp.
Local Open Scope R_scope.

Lemma near_round x d : generic_format radix2 fexp x -> 0 < x -> 2 * Rabs (d - x) < x * bpow radix2 (- prec) ->
  round radix2 fexp ZnearestE d = x.
Proof.
  intros Fx Px Hd. set (f := round radix2 fexp ZnearestE d).
  assert (Ff : generic_format radix2 fexp f) by (apply generic_format_round; auto with typeclass_instances).
  destruct (round_N_pt radix2 fexp (fun n => negb (Z.even n)) d) as [_ HN]. specialize (HN x Fx). fold f in HN.
  assert (Hfx : Rabs (f - x) < x * bpow radix2 (- prec)).
  { replace (f - x) with ((f - d) + (d - x)) by ring. eapply Rle_lt_trans; [apply Rabs_triang|].
    rewrite (Rabs_minus_sym x d) in HN. lra. }
  destruct (Rtotal_order f x) as [H|[H|H]]; auto; exfalso.
  - assert (H' := pred_ge_gt radix2 fexp f x Ff Fx H). rewrite pred_eq_pos in H' by lra. unfold pred_pos in H'.
    assert (U := ulp_FLT_gt radix2 emin prec x). fold fexp in U. rewrite (Rabs_pos_eq x) in U by lra.
    rewrite Rabs_left1 in Hfx by lra.
    destruct (Req_bool_spec x (bpow radix2 (mag radix2 x - 1))) as [E|E]; [|lra].
    assert (G : x * bpow radix2 (- prec) <= bpow radix2 (fexp (mag radix2 x - 1))).
    { rewrite E at 1. rewrite <- bpow_plus. apply bpow_le. unfold fexp, FLT_exp. lia. }
    lra.
  - assert (H' := succ_le_lt radix2 fexp x f Fx Ff H). rewrite succ_eq_pos in H' by lra.
    assert (U := ulp_FLT_gt radix2 emin prec x). fold fexp in U. rewrite (Rabs_pos_eq x) in U by lra.
    rewrite Rabs_pos_eq in Hfx by lra. lra.
Qed.

(** ** strtod *)
Lemma round_aux_equiv sx mx ex lx :
  SpecFloat.binary_round_aux prec emax sx mx ex lx = binary_round_aux prec emax mode_NE sx mx ex lx.
Proof.
  unfold SpecFloat.binary_round_aux, binary_round_aux. destruct (shr_fexp _ _ _) as [mrs' e'].
  replace (round_nearest_even (shr_m mrs') (loc_of_shr_record mrs')) with (choice_mode mode_NE sx (shr_m mrs') (loc_of_shr_record mrs')); auto.
  destruct (loc_of_shr_record mrs') as [|[]]; cbn; auto. unfold Round.cond_incr. now destruct Z.even.
Qed.

Lemma sfdiv_back s (a b : positive) m e : bounded prec emax m e = true ->
  round radix2 fexp ZnearestE (IZR (Zpos a) / IZR (Zpos b)) = F2R (Float radix2 (Zpos m) e) ->
  SFdiv prec emax (S754_finite s a 0) (S754_finite false b 0) = S754_finite s m e.
Proof.
  intros HB HR. cbn [SFdiv].
  destruct (Bdiv_correct_aux prec emax _ _ mode_NE s a 0 false b 0) as [HV HZ].
  destruct (SFdiv_core_binary prec emax (Zpos a) 0 (Zpos b) 0) as [[mz ez] lz]. cbv zeta in *. rewrite round_aux_equiv.
  set (z := binary_round_aux prec emax mode_NE (xorb s false) mz ez lz) in *.
  assert (EQ : F2R (Float radix2 (cond_Zopp s (Zpos a)) 0) / F2R (Float radix2 (cond_Zopp false (Zpos b)) 0) =
               if s then - (IZR (Zpos a) / IZR (Zpos b)) else IZR (Zpos a) / IZR (Zpos b)).
  { unfold F2R. cbn [Fnum Fexp bpow cond_Zopp]. rewrite !Rmult_1_r. destruct s; cbn [cond_Zopp Z.opp]; auto.
    change (Z.neg a) with (- Z.pos a)%Z. rewrite opp_IZR. unfold Rdiv. ring. }
  rewrite EQ in HZ. change (SpecFloat.fexp prec emax) with fexp in HZ.
  assert (RD : round radix2 fexp (round_mode mode_NE) (if s then - (IZR (Zpos a) / IZR (Zpos b)) else IZR (Zpos a) / IZR (Zpos b)) =
               F2R (Float radix2 (cond_Zopp s (Zpos m)) e)).
  { cbn [round_mode]. destruct s; cbn [cond_Zopp]; auto. rewrite round_NE_opp, HR. now rewrite <- F2R_Zopp. }
  rewrite RD in HZ.
  assert (LT : Rabs (F2R (Float radix2 (cond_Zopp s (Zpos m)) e)) < bpow radix2 emax).
  { rewrite <- F2R_Zabs. rewrite abs_cond_Zopp. cbn [Z.abs]. now apply bounded_lt_emax with (prec := prec). }
  rewrite (Rlt_bool_true _ _ LT) in HZ. destruct HZ as (Z1 & Z2 & Z3).
  assert (V2 : valid_binary prec emax (S754_finite s m e) = true) by exact HB.
  rewrite <- (B2SF_SF2B prec emax z HV), <- (B2SF_SF2B prec emax (S754_finite s m e) V2). f_equal.
  apply B2R_Bsign_inj.
  - now rewrite is_finite_SF2B.
  - reflexivity.
  - rewrite !B2R_SF2B, Z1. reflexivity.
  - rewrite !Bsign_SF2B, Z3. now destruct s.
Qed.
End Near.

(** ** digits *)
Local Open Scope Z_scope.
Lemma digit_char_ok d : 0 <= d < 10 -> is_digit (digit_char d) = true /\ char_digit (digit_char d) = d.
Proof.
  intros H. assert (d = 0 \/ d = 1 \/ d = 2 \/ d = 3 \/ d = 4 \/ d = 5 \/ d = 6 \/ d = 7 \/ d = 8 \/ d = 9) as D by lia.
  repeat (destruct D as [->|D]; [vm_compute; auto|]). subst; vm_compute; auto.
Qed.
Lemma digs_length k n : length (digs k n) = k.
Proof. revert n; induction k; intros n; cbn [digs]; auto. rewrite app_length, IHk. cbn. lia. Qed.
Lemma digs_digits k n : all_digits (digs k n).
Proof.
  revert n; induction k as [|k IH]; intros n; cbn [digs]; [constructor|]. apply Forall_app. split; [apply IH|]. constructor; [|constructor].
  apply digit_char_ok. apply Z.mod_pos_bound. lia.
Qed.
Lemma digs_value k n : 0 <= n < 10 ^ Z.of_nat k -> Z_of_digits (digs k n) = n.
Proof.
  revert n; induction k as [|k IH]; intros n Hn; cbn [digs].
  - cbn in *. lia.
  - unfold Z_of_digits in *. rewrite fold_left_app. cbn [fold_left].
    destruct (digit_char_ok (d := n mod 10)) as [_ ->]; [apply Z.mod_pos_bound; lia|].
    rewrite IH; [symmetry; apply Z.div_mod; lia|].
    rewrite Nat2Z.inj_succ, Z.pow_succ_r in Hn by lia. split; [apply Z.div_pos; lia|]. apply Z.div_lt_upper_bound; lia.
Qed.
Lemma scan_exp_text k : -1000 < k < 1000 -> scan_exp (exp_text k) = Some k.
Proof.
  intros Hk. unfold exp_text, scan_exp. cbn [txt list_ascii_of_string app Ascii.eqb orb]. 
  set (w := if Z.abs k <? 100 then 2%nat else 3%nat).
  assert (Hw : 0 <= Z.abs k < 10 ^ Z.of_nat w).
  { unfold w. destruct (Z.ltb_spec (Z.abs k) 100); cbn [Z.of_nat Pos.of_succ_nat Pos.succ]; lia. }
  assert (E : forall r, (match r with [] => True | c :: _ => is_digit c = false end) -> take_while is_digit (digs w (Z.abs k) ++ r) = (digs w (Z.abs k), r)).
  { intros r. apply take_while_app. apply digs_digits. }
  specialize (E [] I). rewrite app_nil_r in E.
  assert (NE : ended (digs w (Z.abs k)) = false).
  { assert (L := digs_length w (Z.abs k)). destruct (digs w (Z.abs k)); auto. exfalso. unfold w in L. destruct (Z.abs k <? 100); discriminate L. }
  destruct (Z.ltb_spec k 0); cbn [app txt list_ascii_of_string scan_sign Ascii.eqb Bool.eqb]; rewrite E, NE, digs_value by auto; cbn [orb]; f_equal; lia.
Qed.

Section Scan.
Variables (prec emax nd : Z).
Hypothesis Hnd : 1 <= nd.
Lemma scan_sci s d k : 0 <= d < 10 ^ nd -> -1000 < k < 1000 ->
  scan_float prec emax (sign_text s ++ sci_text nd d k) = of_decimal prec emax s d (k - (nd - 1)).
Proof.
  intros Hd Hk. unfold scan_float.
  set (l := digs (Z.to_nat nd) d).
  assert (HL : length l = Z.to_nat nd) by apply digs_length.
  assert (HD : all_digits l) by apply digs_digits.
  assert (HV : Z_of_digits l = d) by (apply digs_value; rewrite Z2Nat.id; lia).
  unfold sci_text. fold l. destruct l as [|c t] eqn:El; [cbn in HL; lia|]. inversion_clear HD as [|? ? Hc Ht].
  assert (HS : scan_sign (sign_text s ++ c :: "."%char :: t ++ exp_text k) = (s, c :: "."%char :: t ++ exp_text k)).
  { destruct s; [reflexivity|]. cbn [sign_text app scan_sign]. destruct (digit_not_sign _ Hc) as [-> ->]. reflexivity. }
  rewrite HS. change (c :: "."%char :: t ++ exp_text k) with ([c] ++ ("."%char :: t ++ exp_text k)).
  rewrite take_while_app; [|repeat constructor; auto|reflexivity]. change (Ascii.eqb "." ".") with true. cbv iota beta.
  rewrite take_while_app; [|auto|reflexivity]. cbn [ended andb]. rewrite scan_exp_text by auto.
  change ([c] ++ t) with (c :: t). rewrite HV. f_equal. cbn [length] in HL. lia.
Qed.
End Scan.

(** ** the printed decimal is close to the number *)
Lemma round_div_spec a b : 0 < b -> 2 * Z.abs (a - b * round_div a b) <= b.
Proof.
  intros Hb. unfold round_div. assert (E := Z.div_mod a b ltac:(lia)). assert (M := Z.mod_pos_bound a b Hb).
  set (q := a / b) in *. set (r := a mod b) in *. clearbody q r. subst a.
  destruct (Z.compare_spec (2 * r) b); [destruct (Z.even q)| |]; nia.
Qed.

Section Decimal.
Variables (prec emax nd : Z).
Context (Hp : Prec_gt_0 prec) (He : Prec_lt_emax prec emax).
Hypothesis Hnd : 1 <= nd.
(** enough digits; 10^-400 below the smallest number; 3 digits are enough for the exponent *)
Hypothesis Hdig : 2 ^ prec < 10 ^ (nd - 1).
Hypothesis Hmin : 2 ^ (emax + prec - 3) <= 10 ^ 400.
Hypothesis Hmax : 2 ^ emax <= 10 ^ 400.
Let emin := (3 - emax - prec).
Let fexp := FLT_exp emin prec.
Let Vfexp : Valid_exp fexp := FLT_exp_valid emin prec.
Local Existing Instance Vfexp.
Notation b10 := (bpow radix10).

Lemma den_pos e : 0 < den e.
Proof. unfold den. destruct (Z.leb_spec 0 e); [lia|]. apply Z.pow_pos_nonneg; lia. Qed.
Lemma pow10_pos q : 0 <= q -> 0 < 10 ^ q.
Proof. intros. apply Z.pow_pos_nonneg; lia. Qed.
Lemma IZR_pow10 q : 0 <= q -> IZR (10 ^ q) = b10 q.
Proof. intros. rewrite <- (IZR_Zpower radix10) by auto. reflexivity. Qed.

Local Open Scope R_scope.
Lemma value m e : IZR (num m e) / IZR (den e) = F2R (Float radix2 m e).
Proof.
  unfold num, den, F2R. cbn [Fnum Fexp]. destruct (Z.leb_spec 0 e).
  - rewrite mult_IZR. change (2 ^ e)%Z with (radix2 ^ e)%Z. rewrite IZR_Zpower by auto. field.
  - change (2 ^ - e)%Z with (radix2 ^ - e)%Z. rewrite IZR_Zpower by lia. rewrite bpow_opp. field.
    apply Rgt_not_eq, bpow_gt_0.
Qed.
Lemma exp10_spec m e v : v = F2R (Float radix2 m e) -> (1 <= num m e * pow10_400 / den e)%Z ->
  b10 (exp10 m e) <= v < b10 (exp10 m e + 1).
Proof.
  intros -> H1. rewrite <- value. assert (HD := den_pos e). assert (HDR : 0 < IZR (den e)) by (now apply IZR_lt).
  set (N := (num m e * pow10_400 / den e)%Z) in *.
  assert (Q1 : (N * den e <= num m e * pow10_400)%Z) by (unfold N; rewrite Z.mul_comm; apply Z.mul_div_le; lia).
  assert (Q2 : (num m e * pow10_400 < (N + 1) * den e)%Z).
  { unfold N. rewrite (Z.mul_comm (_ + 1)), Z.add_1_r. apply Z.mul_succ_div_gt. lia. }
  assert (P4 : IZR pow10_400 = b10 400) by (apply IZR_pow10; lia).
  destruct (Zdigits_correct radix10 N) as [D1 D2]. rewrite Z.abs_eq in D1, D2 by lia.
  assert (DG : (0 < Zdigits radix10 N)%Z) by (apply Zdigits_gt_0; lia).
  unfold exp10. fold N. set (g := Zdigits radix10 N) in *.
  apply IZR_le in D1. rewrite IZR_Zpower in D1 by lia. apply IZR_lt in Q2.
  assert (D2' : (N + 1 <= radix10 ^ g)%Z) by lia. apply IZR_le in D2'. rewrite IZR_Zpower in D2' by lia.
  apply IZR_le in Q1. rewrite !mult_IZR in Q1, Q2. rewrite P4 in Q1, Q2.
  assert (B4 : 0 < b10 400) by apply bpow_gt_0.
  assert (E1 : b10 (g - 401) * b10 400 = b10 (g - 1)) by (rewrite <- bpow_plus; f_equal; lia).
  assert (E2 : b10 (g - 401 + 1) * b10 400 = b10 g) by (rewrite <- bpow_plus; f_equal; lia).
  split.
  - apply Rmult_le_reg_r with (IZR (den e) * b10 400); [now apply Rmult_lt_0_compat|].
    replace (IZR (num m e) / IZR (den e) * (IZR (den e) * b10 400)) with (IZR (num m e) * b10 400) by (field; lra).
    replace (b10 (g - 401) * (IZR (den e) * b10 400)) with (b10 (g - 401) * b10 400 * IZR (den e)) by ring. rewrite E1.
    eapply Rle_trans; [|exact Q1]. apply Rmult_le_compat_r; lra.
  - apply Rmult_lt_reg_r with (IZR (den e) * b10 400); [now apply Rmult_lt_0_compat|].
    replace (IZR (num m e) / IZR (den e) * (IZR (den e) * b10 400)) with (IZR (num m e) * b10 400) by (field; lra).
    replace (b10 (g - 401 + 1) * (IZR (den e) * b10 400)) with (b10 (g - 401 + 1) * b10 400 * IZR (den e)) by ring. rewrite E2.
    eapply Rlt_le_trans; [exact Q2|]. apply Rmult_le_compat_r; lra.
Qed.

Lemma round_div_real a b : (0 < b)%Z -> 2 * Rabs (IZR a / IZR b - IZR (round_div a b)) <= 1.
Proof.
  intros Hb. assert (H := round_div_spec a Hb). apply IZR_le in H. rewrite mult_IZR, abs_IZR, minus_IZR, mult_IZR in H.
  apply IZR_lt in Hb. replace (IZR a / IZR b - IZR (round_div a b)) with ((IZR a - IZR b * IZR (round_div a b)) / IZR b) by (field; lra).
  unfold Rdiv. rewrite Rabs_mult, (Rabs_pos_eq (/ IZR b)) by (left; now apply Rinv_0_lt_compat).
  apply Rmult_le_reg_r with (IZR b); [auto|]. rewrite Rmult_assoc, Rmult_assoc, Rinv_l by lra. lra.
Qed.
Lemma at_unit_spec m e q v : v = F2R (Float radix2 m e) -> 2 * Rabs (v * b10 (- q) - IZR (at_unit m e q)) <= 1.
Proof.
  intros ->. rewrite <- value. assert (HD := den_pos e). assert (HDR : 0 < IZR (den e)) by (now apply IZR_lt). unfold at_unit.
  destruct (Z.leb_spec 0 q).
  - replace (IZR (num m e) / IZR (den e) * b10 (- q)) with (IZR (num m e) / IZR (den e * 10 ^ q)).
    + apply round_div_real. apply Z.mul_pos_pos; auto. now apply pow10_pos.
    + rewrite mult_IZR, IZR_pow10 by auto. rewrite bpow_opp. field. split; [apply Rgt_not_eq, bpow_gt_0|lra].
  - replace (IZR (num m e) / IZR (den e) * b10 (- q)) with (IZR (num m e * 10 ^ (- q)) / IZR (den e)).
    + now apply round_div_real.
    + rewrite mult_IZR, IZR_pow10 by lia. field. lra.
Qed.

(** the digits written are [nd] digits and the number they denote rounds back *)
Lemma decimal_spec m e : bounded prec emax m e = true ->
  let '(d, k) := decimal nd (Zpos m) e in
  (10 ^ (nd - 1) <= d < 10 ^ nd)%Z /\ (-1000 < k < 1000)%Z /\
  round radix2 fexp ZnearestE (IZR d * b10 (k - (nd - 1))) = F2R (Float radix2 (Zpos m) e).
Proof.
  intros HB. set (v := F2R (Float radix2 (Zpos m) e)).
  assert (Fv : generic_format radix2 fexp v).
  { apply generic_format_canonical. exact (canonical_bounded prec emax false m e HB). }
  assert (Pv : 0 < v) by (apply F2R_gt_0; reflexivity).
  assert (Mv : v < bpow radix2 emax) by (now apply bounded_lt_emax with (prec := prec)).
  assert (Ee : (emin <= e)%Z).
  { unfold bounded in HB. apply andb_prop in HB. destruct HB as [HC _]. unfold canonical_mantissa in HC. apply Zeq_bool_eq in HC.
    rewrite <- HC. unfold SpecFloat.fexp. unfold emin, SpecFloat.emin. lia. }
  assert (N1 : (1 <= num (Zpos m) e * pow10_400 / den e)%Z).
  { apply Z.div_le_lower_bound; [apply den_pos|]. rewrite Z.mul_1_r. unfold num, den. destruct (Z.leb_spec 0 e).
    - assert (0 < 2 ^ e)%Z by (apply Z.pow_pos_nonneg; lia). assert (0 < pow10_400)%Z by (apply pow10_pos; lia). nia.
    - transitivity (2 ^ (emax + prec - 3))%Z; [apply Z.pow_le_mono_r; unfold emin in Ee; lia|].
      transitivity (10 ^ 400)%Z; [exact Hmin|]. fold pow10_400. assert (0 < pow10_400)%Z by (apply pow10_pos; lia). nia. }
  destruct (@exp10_spec (Zpos m) e v eq_refl N1) as [K1 K2].
  unfold decimal. set (k := exp10 (Zpos m) e) in *. set (q := (k - (nd - 1))%Z).
  assert (DU := @at_unit_spec (Zpos m) e q v eq_refl). set (d := at_unit (Zpos m) e q) in *.
  assert (KB : (-500 < k < 500)%Z).
  { split.
    - assert (0 < Zdigits radix10 (num (Zpos m) e * pow10_400 / den e))%Z by (apply Zdigits_gt_0; lia). unfold k, exp10. lia.
    - assert (k < 400)%Z; [|lia]. apply (lt_bpow radix10). eapply Rle_lt_trans; [exact K1|]. eapply Rlt_le_trans; [exact Mv|].
      rewrite <- IZR_pow10 by lia. rewrite <- (IZR_Zpower radix2) by (unfold Prec_lt_emax, Prec_gt_0 in *; lia). apply IZR_le. exact Hmax. }
  assert (QV : b10 (nd - 1) <= v * b10 (- q) < b10 nd).
  { assert (0 < b10 (- q)) by apply bpow_gt_0. split.
    - replace (nd - 1)%Z with (k + - q)%Z by (unfold q; lia). rewrite bpow_plus. apply Rmult_le_compat_r; lra.
    - replace nd with (k + 1 + - q)%Z by (unfold q; lia). rewrite bpow_plus. apply Rmult_lt_compat_r; lra. }
  assert (DB : (10 ^ (nd - 1) <= d <= 10 ^ nd)%Z).
  { assert (A : Rabs (v * b10 (- q) - IZR d) <= 1 / 2) by lra. apply Rabs_le_inv in A. split.
    - apply Z.lt_pred_le. apply lt_IZR. unfold Z.pred. rewrite plus_IZR, IZR_pow10 by lia. lra.
    - apply Z.lt_succ_r. apply lt_IZR. unfold Z.succ. rewrite plus_IZR, IZR_pow10 by lia. lra. }
  assert (RD : round radix2 fexp ZnearestE (IZR d * b10 q) = v).
  { apply near_round; auto.
    assert (B : 0 < b10 q) by apply bpow_gt_0.
    assert (E : IZR d * b10 q - v = - ((v * b10 (- q) - IZR d) * b10 q)).
    { rewrite bpow_opp. field. lra. }
    rewrite E, Rabs_Ropp, Rabs_mult, (Rabs_pos_eq (b10 q)) by lra.
    apply Rle_lt_trans with (b10 q); [rewrite <- Rmult_assoc; rewrite <- (Rmult_1_l (b10 q)) at 2; apply Rmult_le_compat_r; lra|].
    apply Rle_lt_trans with (v * b10 (- (nd - 1))).
    - replace q with (k + - (nd - 1))%Z by (unfold q; lia). rewrite bpow_plus. apply Rmult_le_compat_r; [apply bpow_ge_0|lra].
    - apply Rmult_lt_compat_l; auto. rewrite !bpow_opp. apply Rinv_lt_contravar.
      + apply Rmult_lt_0_compat; apply bpow_gt_0.
      + rewrite <- IZR_pow10 by lia. rewrite <- (IZR_Zpower radix2) by (unfold Prec_gt_0 in *; lia). apply IZR_lt. exact Hdig. }
  assert (PN : (10 ^ nd = 10 * 10 ^ (nd - 1))%Z) by (rewrite <- Z.pow_succ_r by lia; f_equal; lia).
  assert (0 < 10 ^ (nd - 1))%Z by (apply pow10_pos; lia).
  destruct (Z.eqb_spec d (10 ^ nd)) as [E|E].
  - split; [lia|]. split; [lia|]. rewrite <- RD. f_equal. rewrite E. rewrite !IZR_pow10 by lia.
    rewrite <- !bpow_plus. f_equal. unfold q. lia.
  - split; [lia|]. split; [lia|]. exact RD.
Qed.

Lemma of_decimal_back s d k m e : bounded prec emax m e = true -> (0 < d)%Z ->
  round radix2 fexp ZnearestE (IZR d * b10 k) = F2R (Float radix2 (Zpos m) e) ->
  of_decimal prec emax s d k = S754_finite s m e.
Proof.
  intros HB Hd HR. unfold of_decimal. destruct d as [|p|p]; try lia.
  destruct (Z.leb_spec 0 k) as [Hk|Hk].
  - assert (0 < 10 ^ k)%Z by (now apply pow10_pos).
    rewrite (@sfdiv_back prec emax Hp He s _ _ m e HB); auto.
    rewrite Z2Pos.id by lia. unfold Rdiv. rewrite Rinv_1, Rmult_1_r. rewrite mult_IZR, IZR_pow10 by auto. exact HR.
  - assert (0 < 10 ^ (- k))%Z by (apply pow10_pos; lia).
    rewrite (@sfdiv_back prec emax Hp He s _ _ m e HB); auto.
    rewrite Z2Pos.id by lia. rewrite IZR_pow10 by lia. rewrite bpow_opp. unfold Rdiv. rewrite Rinv_inv. exact HR.
Qed.

Theorem float_back (x : spec_float) : valid_binary prec emax x = true -> is_finite_SF x = true ->
  scan_float prec emax (print_float nd x) = x.
Proof.
  destruct x as [s|s| |s m e]; intros HV HF; try discriminate HF; cbn [print_float].
  - rewrite scan_sci; [reflexivity|auto|split; [lia|apply pow10_pos; lia]|lia].
  - assert (D := decimal_spec m e HV). destruct (decimal nd (Zpos m) e) as [d k]. destruct D as (D1 & D2 & D3).
    assert (0 < 10 ^ (nd - 1))%Z by (apply pow10_pos; lia).
    rewrite scan_sci; auto; [|lia]. apply of_decimal_back; auto. lia.
Qed.
Lemma float_nonempty x : print_float nd x <> [] .
Proof.
  assert (L : forall d k, exists c t, sci_text nd d k = c :: t).
  { intros d k. unfold sci_text. assert (LL := digs_length (Z.to_nat nd) d). destruct (digs (Z.to_nat nd) d); [cbn in LL; lia|eauto]. }
  destruct x as [s|s| |s m e]; cbn [print_float].
  - destruct (L 0%Z 0%Z) as (c & t & ->). destruct s; discriminate.
  - destruct s; discriminate.
  - discriminate.
  - destruct (decimal nd (Zpos m) e) as [d k]. destruct (L d k) as (c & t & ->). destruct s; discriminate.
Qed.
Lemma float_no_space x : no_space (print_float nd x).
Proof.
  assert (L : forall d k, no_space (sci_text nd d k)).
  { intros d k. unfold sci_text. assert (LL := digs_digits (Z.to_nat nd) d). apply digits_no_space in LL.
    destruct (digs (Z.to_nat nd) d) as [|c t]; [constructor|]. inversion_clear LL. constructor; auto. constructor; [reflexivity|].
    apply Forall_app. split; auto. unfold exp_text. apply Forall_app. split; [repeat constructor|]. apply Forall_app.
    split; [destruct (k <? 0)%Z; repeat constructor|]. apply digits_no_space, digs_digits. }
  assert (S : forall s, no_space (sign_text s)) by (intros []; repeat constructor).
  destruct x as [s|s| |s m e]; cbn [print_float].
  - apply Forall_app. split; [apply S|apply L].
  - apply Forall_app. split; [apply S|repeat constructor].
  - repeat constructor.
  - destruct (decimal nd (Zpos m) e) as [d k]. apply Forall_app. split; [apply S|apply L].
Qed.
End Decimal.

(** ** double and float *)
Lemma codec64_back x : valid_binary 53 1024 x = true -> is_finite_SF x = true -> @codec_ok spec_float codec64 x.
Proof.
  intros HV HF. split; [apply (@float_nonempty 53 1024 18); try reflexivity; discriminate|]. split; [apply float_no_space|].
  apply float_back; auto; try reflexivity; try (vm_compute; discriminate).
Qed.
Lemma codec32_back x : valid_binary 24 128 x = true -> is_finite_SF x = true -> @codec_ok spec_float codec32 x.
Proof.
  intros HV HF. split; [apply (@float_nonempty 24 128 10); try reflexivity; discriminate|]. split; [apply float_no_space|].
  apply float_back; auto; try reflexivity; try (vm_compute; discriminate).
Qed.
Print Assumptions codec64_back.
