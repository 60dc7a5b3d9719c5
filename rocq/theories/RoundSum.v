(** * RoundSum: error of any summation tree. *)
From Coq Require Import ZArith Reals Psatz Floats.SpecFloat Permutation.
From Flocq Require Import Core BinarySingleNaN.
From Verif Require Import Base Scalar Spec Mem MemSpec VecModel VecSpec ReduceModel ReduceSpec ReduceProof RoundSpec RoundProof.
Set Implicit Arguments.

(** what holds of the empty sum and single terms, and is kept by addition, holds of every possible result *)
Section Tree.
Context {F A : Type} {SF : Scalar F}.
Variable f : A -> F.
Variable P : list A -> F -> Prop.
Hypothesis P_nil : P [] f0.
Hypothesis P_one : forall i, P [i] (f i).
Hypothesis P_add : forall I J a b, P I a -> P J b -> P (I ++ J) (fadd a b).
Hypothesis P_perm : forall I J a, Permutation I J -> P I a -> P J a.

Lemma tree_fold its I acc : P I acc -> P (I ++ its) (fold_left (fun a i => fadd a (f i)) its acc).
Proof.
  revert I acc. induction its as [|i its IH]; intros I acc H; cbn [fold_left].
  - now rewrite app_nil_r.
  - replace (I ++ i :: its) with ((I ++ [i]) ++ its) by (rewrite <- app_assoc; reflexivity). apply IH. now apply P_add.
Qed.
Lemma perm_F2 (l l' : list F) : Permutation l l' -> forall Ls, Forall2 P Ls l -> exists Ls', Permutation Ls Ls' /\ Forall2 P Ls' l'.
Proof.
  induction 1; intros Ls HF.
  - inversion HF. subst. exists []. split; constructor.
  - inversion HF as [|I a Ls0 l0 H1 H2]; subst. destruct (IHPermutation _ H2) as (Ls' & G1 & G2). exists (I :: Ls'). split; constructor; auto.
  - inversion HF as [|I a Ls0 l0 H1 H2]; subst. inversion H2 as [|I' a' Ls1 l1 H3 H4]; subst. exists (I' :: I :: Ls1). split; [constructor|]. repeat constructor; auto.
  - destruct (IHPermutation1 _ HF) as (L1 & G1 & G2). destruct (IHPermutation2 _ G2) as (L2 & G3 & G4). exists L2. split; auto. eapply perm_trans; eauto.
Qed.
Lemma tree_combine l c : combine fadd l c -> forall Ls, Forall2 P Ls l -> P (concat Ls) c.
Proof.
  induction 1 as [a|l l1 l2 a b H1 IH1 H2 IH2 HP]; intros Ls HF.
  - inversion HF as [|I x Ls0 l0 G1 G2]; subst. inversion G2; subst. cbn. now rewrite app_nil_r.
  - destruct (perm_F2 HP HF) as (Ls' & G1 & G2). apply Forall2_app_inv_r in G2. destruct G2 as (K & L & GA & GB & ->).
    apply P_perm with (concat K ++ concat L).
    + rewrite <- concat_app. apply Permutation_sym. clear - G1. induction G1; cbn; auto.
      * now apply Permutation_app_head.
      * rewrite !app_assoc. apply Permutation_app_tail, Permutation_app_comm.
      * eapply perm_trans; eauto.
    + apply P_add; auto.
Qed.
Lemma tree_list l : P l (fold_left (fun a i => fadd a (f i)) l f0).
Proof. apply (@tree_fold l [] f0 P_nil). Qed.
End Tree.

Lemma tree_red {F} {SF : Scalar F} (f : nat -> F) (P : list nat -> F -> Prop) n term post (m : mem F) v :
  P [] f0 -> (forall i, P [i] (f i)) -> (forall I J a b, P I a -> P J b -> P (I ++ J) (fadd a b)) ->
  (forall I J a, Permutation I J -> P I a -> P J a) ->
  (forall i, i < n -> term m i = Ok (f i)) ->
  red_val (additive true n term post) m v -> exists c, v = post c /\ P (seq 0 n) c.
Proof.
  intros P_nil P_one P_add P_perm H Hv. apply (red_val_iff (additive true n term post) m f v H eq_refl) in Hv. destruct Hv as (_ & d & c & Hd & Hc & ->).
  exists c. split; auto. cbn [additive r_comb r_n] in *. apply P_perm with (concat ([] :: d)); [exact Hd|].
  apply (@tree_combine F nat SF P P_add P_perm _ _ Hc). constructor; auto. unfold accs. cbn [additive r_step r_ident].
  clear Hd Hc. induction d as [|its d IH]; cbn; constructor; auto. apply (@tree_fold F nat SF f P P_one P_add its [] f0 P_nil).
Qed.


Local Open Scope R_scope.
Lemma rsum_app {A} (g : A -> R) l1 l2 : rsum g (l1 ++ l2) = rsum g l1 + rsum g l2.
Proof. unfold rsum. induction l1 as [|a l1 IH]; cbn; [lra|]. rewrite IH. lra. Qed.
Lemma rsum_perm {A} (g : A -> R) l1 l2 : Permutation l1 l2 -> rsum g l1 = rsum g l2.
Proof. unfold rsum. induction 1; cbn; lra. Qed.
Lemma rsum_pos {A} (g : A -> R) l : (forall a, In a l -> 0 <= g a) -> 0 <= rsum g l.
Proof. unfold rsum. induction l as [|a l IH]; cbn; intros H; [lra|]. pose proof (H a (or_introl eq_refl)). assert (0 <= fold_right (fun a s => g a + s) 0 l) by (apply IH; auto). lra. Qed.
Lemma rsum_le {A} (g h : A -> R) l : (forall a, In a l -> g a <= h a) -> rsum g l <= rsum h l.
Proof. unfold rsum. induction l as [|a l IH]; cbn; intros H; [lra|]. apply Rplus_le_compat; auto. Qed.
Lemma rsum_ext {A} (g h : A -> R) l : (forall a, In a l -> g a = h a) -> rsum g l = rsum h l.
Proof. unfold rsum. induction l as [|a l IH]; cbn; intros H; [lra|]. rewrite H, IH by auto. reflexivity. Qed.
Lemma rsum_abs {A} (g : A -> R) l : Rabs (rsum g l) <= rsum (fun a => Rabs (g a)) l.
Proof. unfold rsum. induction l as [|a l IH]; cbn; [rewrite Rabs_R0; lra|]. eapply Rle_trans; [apply Rabs_triang|]. lra. Qed.
Lemma rsum_sub {A} (g h : A -> R) l : rsum g l - rsum h l = rsum (fun a => g a - h a) l.
Proof. unfold rsum. induction l as [|a l IH]; cbn; [lra|]. rewrite <- IH. lra. Qed.
Lemma rsum_plus {A} (g h : A -> R) l : rsum (fun a => g a + h a) l = rsum g l + rsum h l.
Proof. unfold rsum. induction l as [|a l IH]; cbn; [lra|]. rewrite IH. lra. Qed.
Lemma rsum_scal {A} c (g : A -> R) l : rsum (fun a => c * g a) l = c * rsum g l.
Proof. unfold rsum. induction l as [|a l IH]; cbn; [lra|]. rewrite IH. lra. Qed.
Lemma rsum_const {A} c (l : list A) : rsum (fun _ => c) l = INR (length l) * c.
Proof. unfold rsum. induction l as [|a l IH]; [cbn; lra|]. cbn [fold_right length]. rewrite S_INR, IH. lra. Qed.
Lemma rsum_map {A B} (h : A -> B) (g : B -> R) l : rsum g (map h l) = rsum (fun a => g (h a)) l.
Proof. unfold rsum. induction l as [|a l IH]; cbn; congruence. Qed.

Section Sum.
Variables prec emax : Z.
Context (Hp : Prec_gt_0 prec) (He : Prec_lt_emax prec emax).
Notation num := (num prec emax).
Notation u := (uro prec).
Notation SFp := (ieee prec emax).
Context {A : Type}.
Variable f : A -> spec_float.
Hypothesis Hf : forall i, num (f i).

Lemma pow_u_ge k : 1 <= (1 + u) ^ k.
Proof. apply pow_R1_Rle. pose proof (u_pos prec). lra. Qed.
Lemma pow_u_le k l : (k <= l)%nat -> (1 + u) ^ k <= (1 + u) ^ l.
Proof. intros. apply Rle_pow; auto. pose proof (u_pos prec). lra. Qed.

Notation S I := (rsum (fun i => val (f i)) I).
Notation T I := (rsum (fun i => Rabs (val (f i))) I).
Definition appr (I : list A) (a : spec_float) : Prop :=
  num a /\
  (finite a -> (forall i, In i I -> finite (f i)) /\ Rabs (val a - S I) <= gam prec (Nat.pred (length I)) * T I) /\
  ((forall i, In i I -> finite (f i)) -> (1 + u) ^ Nat.pred (length I) * T I < huge emax -> finite a).

Lemma T_pos I : 0 <= T I.
Proof. apply rsum_pos. intros. apply Rabs_pos. Qed.
Lemma appr_nil : appr [] (S754_zero false).
Proof.
  split; [reflexivity|]. split.
  - intros _. split; [intros i []|]. cbn. unfold gam, rsum. cbn. rewrite Rminus_0_r, Rabs_R0. lra.
  - intros _ _. exact I.
Qed.
Lemma appr_one i : appr [i] (f i).
Proof.
  split; auto. split.
  - intros H. split; [intros j [ <- |[]]; auto|]. cbn. unfold gam, rsum. cbn. rewrite Rplus_0_r, Rminus_diag_eq by reflexivity. rewrite Rabs_R0. lra.
  - intros H _. apply H. now left.
Qed.
Lemma appr_perm I J a : Permutation I J -> appr I a -> appr J a.
Proof.
  intros P (H1 & H2 & H3). split; auto. rewrite <- (Permutation_length P), <- (rsum_perm _ P), <- (rsum_perm _ P).
  split.
  - intros G. destruct (H2 G) as (K1 & K2). split; auto. intros i Hi. apply K1. eapply Permutation_in; [apply Permutation_sym|]; eauto.
  - intros G. apply H3. intros i Hi. apply G. eapply Permutation_in; eauto.
Qed.
(** the sum of two approximations, before overflow is considered *)
Lemma appr_bound I J a b : num a -> num b ->
  Rabs (val a - S I) <= gam prec (Nat.pred (length I)) * T I -> Rabs (val b - S J) <= gam prec (Nat.pred (length J)) * T J ->
  Rabs (round radix2 (FLT_exp (3 - emax - prec) prec) ZnearestE (val a + val b) - S (I ++ J)) <= gam prec (Nat.pred (length (I ++ J))) * T (I ++ J).
Proof.
  intros Na Nb Ha Hb. rewrite !rsum_app, app_length.
  assert (Z : forall K c, Rabs (val c - S K) <= gam prec (Nat.pred (length K)) * T K -> length K = 0%nat -> val c = 0 /\ S K = 0 /\ T K = 0).
  { intros [|k K] c Hc L; [|discriminate]. cbn in *. unfold rsum, gam in *. cbn in *. split; auto.
    revert Hc. unfold Rabs. destruct (Rcase_abs _); lra. }
  destruct (length I) as [|ki] eqn:EI.
  { destruct (Z I a) as (Z1 & Z2 & Z3); auto. { now rewrite EI. } rewrite Z1, Z2, Z3, !Rplus_0_l, RN_num; auto. }
  destruct (length J) as [|kj] eqn:EJ.
  { destruct (Z J b) as (Z1 & Z2 & Z3); auto. { now rewrite EJ. } rewrite Z1, Z2, Z3, !Rplus_0_r, Nat.add_0_r, RN_num; auto. }
  cbn [Nat.pred] in Ha, Hb. replace (Nat.pred (Datatypes.S ki + Datatypes.S kj)) with (Datatypes.S (ki + kj)) by lia.
  pose proof (@RN_add prec emax Hp a b Na Nb) as HR. set (r := round _ _ _ _) in *.
  pose proof (u_pos prec) as U. pose proof (T_pos I) as TI. pose proof (T_pos J) as TJ.
  set (w := gam prec (ki + kj)).
  assert (Hwi : gam prec ki <= w) by (unfold w, gam; pose proof (@pow_u_le ki (ki + kj) ltac:(lia)); lra).
  assert (Hwj : gam prec kj <= w) by (unfold w, gam; pose proof (@pow_u_le kj (ki + kj) ltac:(lia)); lra).
  assert (EW : gam prec (Datatypes.S (ki + kj)) = (1 + u) * w + u) by (unfold w, gam; cbn [pow]; ring).
  rewrite EW.
  assert (A1 : Rabs (val a - S I) <= w * T I) by (apply Rle_trans with (1 := Ha); apply Rmult_le_compat_r; auto).
  assert (A2 : Rabs (val b - S J) <= w * T J) by (apply Rle_trans with (1 := Hb); apply Rmult_le_compat_r; auto).
  pose proof (rsum_abs (fun i => val (f i)) I) as B1. pose proof (rsum_abs (fun i => val (f i)) J) as B2.
  replace (r - (S I + S J)) with ((r - (val a + val b)) + ((val a - S I) + (val b - S J))) by ring.
  assert (A3 : Rabs (val a + val b) <= (w * T I + w * T J) + (T I + T J)).
  { replace (val a + val b) with (((val a - S I) + (val b - S J)) + (S I + S J)) by ring.
    eapply Rle_trans; [apply Rabs_triang|]. pose proof (Rabs_triang (val a - S I) (val b - S J)). pose proof (Rabs_triang (S I) (S J)). lra. }
  eapply Rle_trans; [apply Rabs_triang|]. pose proof (Rabs_triang (val a - S I) (val b - S J)) as A4.
  assert (A5 : u * Rabs (val a + val b) <= u * ((w * T I + w * T J) + (T I + T J))) by (apply Rmult_le_compat_l; lra).
  nra.
Qed.
Lemma appr_add I J a b : appr I a -> appr J b -> appr (I ++ J) (SFadd prec emax a b).
Proof.
  intros (H1 & H2 & H3) (G1 & G2 & G3). split; [|split].
  - now apply add_num.
  - intros F. destruct (@add_val prec emax Hp He a b H1 G1 F) as (Fa & Fb & ->).
    destruct (H2 Fa) as (K1 & K2). destruct (G2 Fb) as (L1 & L2). split.
    + intros i Hi. apply in_app_or in Hi. destruct Hi; auto.
    + now apply appr_bound.
  - intros F L. rewrite rsum_app in L. pose proof (T_pos I) as TI. pose proof (T_pos J) as TJ.
    assert (PI : (1 + u) ^ Nat.pred (length I) * T I < huge emax).
    { apply Rle_lt_trans with (2 := L). apply Rmult_le_compat; try lra.
      - pose proof (pow_u_ge (Nat.pred (length I))). lra.
      - apply pow_u_le. rewrite app_length. lia. }
    assert (PJ : (1 + u) ^ Nat.pred (length J) * T J < huge emax).
    { apply Rle_lt_trans with (2 := L). apply Rmult_le_compat; try lra.
      - pose proof (pow_u_ge (Nat.pred (length J))). lra.
      - apply pow_u_le. rewrite app_length. lia. }
    assert (Fa : finite a) by (apply H3; auto; intros; apply F, in_or_app; auto).
    assert (Fb : finite b) by (apply G3; auto; intros; apply F, in_or_app; auto).
    apply add_finite; auto. destruct (H2 Fa) as (_ & K2). destruct (G2 Fb) as (_ & L2).
    pose proof (@appr_bound I J a b H1 G1 K2 L2) as B. set (r := round _ _ _ _) in *.
    apply Rle_lt_trans with (2 := L). rewrite <- rsum_app. unfold gam in B.
    replace r with ((r - S (I ++ J)) + S (I ++ J)) by ring. eapply Rle_trans; [apply Rabs_triang|].
    pose proof (rsum_abs (fun i => val (f i)) (I ++ J)). lra.
Qed.

(** integer data *)
Variable z : A -> Z.
Hypothesis Hz : forall i, finite (f i) -> val (f i) = IZR (z i).
Definition zsum (I : list A) : Z := fold_right (fun i s => z i + s)%Z 0%Z I.
Definition zabs (I : list A) : Z := fold_right (fun i s => Z.abs (z i) + s)%Z 0%Z I.
Lemma zsum_app I J : zsum (I ++ J) = (zsum I + zsum J)%Z.
Proof. unfold zsum. induction I; cbn; lia. Qed.
Lemma zabs_app I J : zabs (I ++ J) = (zabs I + zabs J)%Z.
Proof. unfold zabs. induction I; cbn; lia. Qed.
Lemma zabs_pos I : (0 <= zabs I)%Z.
Proof. unfold zabs. induction I; cbn; lia. Qed.
Lemma zsum_abs I : (Z.abs (zsum I) <= zabs I)%Z.
Proof. unfold zabs, zsum. induction I; cbn; lia. Qed.
Definition exact_int (I : list A) (a : spec_float) : Prop :=
  num a /\ ((forall i, In i I -> finite (f i)) -> (zabs I <= 2 ^ prec)%Z -> finite a /\ val a = IZR (zsum I)).
Lemma exact_nil : exact_int [] (S754_zero false).
Proof. split; [reflexivity|]. intros _ _. split; [exact I|reflexivity]. Qed.
Lemma exact_one i : exact_int [i] (f i).
Proof. split; auto. intros H _. split; [apply H; now left|]. rewrite Hz by (apply H; now left). unfold zsum. cbn. f_equal. lia. Qed.
Lemma exact_perm I J a : Permutation I J -> exact_int I a -> exact_int J a.
Proof.
  intros P (H1 & H2). split; auto. intros F L.
  assert (E1 : zsum I = zsum J) by (unfold zsum; clear - P; induction P; cbn; lia).
  assert (E2 : zabs I = zabs J) by (unfold zabs; clear - P; induction P; cbn; lia).
  rewrite <- E1. apply H2; [|lia]. intros i Hi. apply F. eapply Permutation_in; eauto.
Qed.
Lemma exact_add I J a b : exact_int I a -> exact_int J b -> exact_int (I ++ J) (SFadd prec emax a b).
Proof.
  intros (H1 & H2) (G1 & G2). split; [now apply add_num|]. intros F L. rewrite zabs_app in L.
  pose proof (zabs_pos I). pose proof (zabs_pos J).
  destruct H2 as (Fa & Va); [intros; apply F, in_or_app; auto|lia|].
  destruct G2 as (Fb & Vb); [intros; apply F, in_or_app; auto|lia|].
  assert (E : round radix2 (FLT_exp (3 - emax - prec) prec) ZnearestE (val a + val b) = IZR (zsum (I ++ J))).
  { rewrite Va, Vb, <- plus_IZR, <- zsum_app. apply RN_int; auto. pose proof (zsum_abs (I ++ J)). rewrite zabs_app in *. lia. }
  assert (Fs : finite (SFadd prec emax a b)).
  { apply add_finite; auto. rewrite E, <- abs_IZR. unfold huge. rewrite powerRZ_bpow.
    assert (P1 : (0 < prec)%Z) by exact Hp. assert (P2 : (prec < emax)%Z) by exact He.
    apply Rle_lt_trans with (bpow radix2 prec).
    - rewrite <- IZR_Zpower by lia. apply IZR_le. change (radix_val radix2) with 2%Z. pose proof (zsum_abs (I ++ J)). rewrite zabs_app in *. lia.
    - now apply bpow_lt. }
  split; auto. destruct (@add_val prec emax Hp He a b H1 G1 Fs) as (_ & _ & ->). exact E.
Qed.
End Sum.

(** sums of products *)
Section Dot.
Variables prec emax : Z.
Context (Hp : Prec_gt_0 prec) (He : Prec_lt_emax prec emax).
Notation num := (num prec emax).
Notation u := (uro prec).
Notation eta := (tiny prec emax).
Context {A : Type}.
Variables a b : A -> spec_float.
Hypothesis Ha : forall i, num (a i).
Hypothesis Hb : forall i, num (b i).
Definition prods (i : A) : spec_float := SFmul prec emax (a i) (b i).
Lemma prods_num i : num (prods i).
Proof. now apply mul_num. Qed.
Notation E I := (rsum (fun i => val (a i) * val (b i)) I).
Notation G I := (rsum (fun i => Rabs (val (a i) * val (b i))) I).
Notation RN := (round radix2 (FLT_exp (3 - emax - prec) prec) ZnearestE).

Lemma RN_abs r : Rabs (RN r) <= (1 + u) * Rabs r + eta.
Proof.
  pose proof (@RN_any prec emax Hp r). replace (RN r) with ((RN r - r) + r) by ring. eapply Rle_trans; [apply Rabs_triang|]. lra.
Qed.
Lemma prods_err I : (forall i, In i I -> finite (prods i)) ->
  Rabs (rsum (fun i => val (prods i)) I - E I) <= u * G I + INR (length I) * eta /\
  rsum (fun i => Rabs (val (prods i))) I <= (1 + u) * G I + INR (length I) * eta.
Proof.
  intros F. rewrite rsum_sub, <- rsum_const, <- !rsum_scal, <- !rsum_plus. split.
  - eapply Rle_trans; [apply rsum_abs|]. apply rsum_le. intros i Hi.
    destruct (@mul_val prec emax Hp He (a i) (b i) (Ha i) (Hb i) (F i Hi)) as (_ & _ & E). fold (prods i) in E. rewrite E. now apply RN_any.
  - apply rsum_le. intros i Hi. destruct (@mul_val prec emax Hp He (a i) (b i) (Ha i) (Hb i) (F i Hi)) as (_ & _ & E). fold (prods i) in E. rewrite E. apply RN_abs.
Qed.
Lemma dot_appr I c : appr prec emax prods I c ->
  num c /\
  (finite c -> (forall i, In i I -> finite (a i) /\ finite (b i)) /\
     Rabs (val c - E I) <= gam prec (length I) * G I + INR (length I) * (1 + u) ^ Nat.pred (length I) * eta) /\
  ((forall i, In i I -> finite (a i) /\ finite (b i)) ->
     (1 + u) ^ length I * G I + INR (length I) * (1 + u) ^ Nat.pred (length I) * eta < huge emax -> finite c).
Proof.
  intros (H1 & H2 & H3). split; auto.
  pose proof (u_pos prec) as U. pose proof (eta_pos prec emax) as N.
  assert (GP : 0 <= G I) by (apply rsum_pos; intros; apply Rabs_pos).
  assert (EP : forall k, True /\ (k <> 0%nat -> (1 + u) * (1 + u) ^ Nat.pred k = (1 + u) ^ k)).
  { intros k. split; auto. destruct k; intros K; [now destruct K|reflexivity]. }
  assert (LP : 0 <= INR (length I) * eta) by (apply Rmult_le_pos; [apply pos_INR|lra]).
  assert (Z : length I = 0%nat -> G I = 0 /\ INR (length I) * eta = 0).
  { destruct I; [|discriminate]. intros _. unfold rsum. cbn. lra. }
  set (n := INR (length I)) in *. pose proof (@pow_u_ge prec (Nat.pred (length I))) as W1.
  split.
  - intros F. destruct (H2 F) as (K1 & K2). split.
    + intros i Hi. destruct (@mul_val prec emax Hp He (a i) (b i) (Ha i) (Hb i) (K1 i Hi)) as (? & ? & _). auto.
    + destruct (prods_err I K1) as (P1 & P2). fold n in P1, P2.
      set (T := rsum (fun i => Rabs (val (prods i))) I) in *. set (Sm := rsum (fun i => val (prods i)) I) in *.
      assert (TP : 0 <= T) by (apply rsum_pos; intros; apply Rabs_pos).
      replace (val c - E I) with ((val c - Sm) + (Sm - E I)) by ring. eapply Rle_trans; [apply Rabs_triang|].
      unfold gam in *. set (w := (1 + u) ^ Nat.pred (length I)) in *.
      assert (K3 : (w - 1) * T <= (w - 1) * ((1 + u) * G I + n * eta)) by (apply Rmult_le_compat_l; lra).
      destruct (Nat.eq_dec (length I) 0) as [L|L].
      * destruct (Z L) as (Z1 & Z2). rewrite Z1, Z2 in *. rewrite Rmult_assoc, (Rmult_comm w), <- Rmult_assoc, Z2. nra.
      * destruct (EP (length I)) as (_ & EP2). rewrite <- (EP2 L). fold w. nra.
  - intros F L. apply H3.
    + intros i Hi. destruct (F i Hi) as (Fa & Fb). apply mul_finite; auto. eapply Rle_lt_trans; [apply RN_abs|].
      eapply Rle_lt_trans; [|exact L].
      assert (Hin : Rabs (val (a i) * val (b i)) <= G I).
      { clear - Hi. induction I as [|k l IH]; [destruct Hi|]. unfold rsum. cbn [fold_right]. fold (rsum (fun i => Rabs (val (a i) * val (b i))) l).
        assert (0 <= rsum (fun i => Rabs (val (a i) * val (b i))) l) by (apply rsum_pos; intros; apply Rabs_pos).
        destruct Hi as [ -> |Hi]; [lra|]. specialize (IH Hi). pose proof (Rabs_pos (val (a k) * val (b k))). lra. }
      assert (Ln : length I <> 0%nat) by (destruct I; [destruct Hi|discriminate]).
      assert (n1 : 1 <= n). { unfold n. change 1 with (INR 1). apply le_INR. lia. }
      destruct (EP (length I)) as (_ & EP2). rewrite <- (EP2 Ln). set (w := (1 + u) ^ Nat.pred (length I)) in *.
      pose proof (Rabs_pos (val (a i) * val (b i))). 
      assert (NW : 1 <= n * w) by (rewrite <- (Rmult_1_l 1); apply Rmult_le_compat; lra). assert (1 * eta <= n * w * eta) by (apply Rmult_le_compat_r; lra). assert (Rabs (val (a i) * val (b i)) <= w * G I) by (rewrite <- (Rmult_1_l (Rabs _)); apply Rmult_le_compat; lra). nra.
    + assert (FP : forall i, In i I -> finite (prods i)).
      { intros i Hi. destruct (F i Hi) as (Fa & Fb). apply mul_finite; auto. eapply Rle_lt_trans; [apply RN_abs|].
        eapply Rle_lt_trans; [|exact L].
        assert (Hin : Rabs (val (a i) * val (b i)) <= G I).
        { clear - Hi. induction I as [|k l IH]; [destruct Hi|]. unfold rsum. cbn [fold_right]. fold (rsum (fun i => Rabs (val (a i) * val (b i))) l).
          assert (0 <= rsum (fun i => Rabs (val (a i) * val (b i))) l) by (apply rsum_pos; intros; apply Rabs_pos).
          destruct Hi as [ -> |Hi]; [lra|]. specialize (IH Hi). pose proof (Rabs_pos (val (a k) * val (b k))). lra. }
        assert (Ln : length I <> 0%nat) by (destruct I; [destruct Hi|discriminate]).
        assert (n1 : 1 <= n). { unfold n. change 1 with (INR 1). apply le_INR. lia. }
        destruct (EP (length I)) as (_ & EP2). rewrite <- (EP2 Ln). set (w := (1 + u) ^ Nat.pred (length I)) in *.
        pose proof (Rabs_pos (val (a i) * val (b i))).
        assert (NW : 1 <= n * w) by (rewrite <- (Rmult_1_l 1); apply Rmult_le_compat; lra). assert (1 * eta <= n * w * eta) by (apply Rmult_le_compat_r; lra). assert (Rabs (val (a i) * val (b i)) <= w * G I) by (rewrite <- (Rmult_1_l (Rabs _)); apply Rmult_le_compat; lra). nra. }
      destruct (prods_err I FP) as (_ & P2). fold n in P2. eapply Rle_lt_trans; [|exact L].
      set (w := (1 + u) ^ Nat.pred (length I)) in *.
      destruct (Nat.eq_dec (length I) 0) as [Le|Le].
      * destruct (Z Le) as (Z1 & Z2). rewrite Z1, Z2 in *. assert (n * w * eta = 0) as -> by (rewrite Rmult_assoc, (Rmult_comm w), <- Rmult_assoc, Z2; lra). nra.
      * destruct (EP (length I)) as (_ & EP2). rewrite <- (EP2 Le). fold w. nra.
Qed.

(** integer data *)
Variables za zb : A -> Z.
Hypothesis Hza : forall i, finite (a i) -> val (a i) = IZR (za i).
Hypothesis Hzb : forall i, finite (b i) -> val (b i) = IZR (zb i).
Lemma prods_int i : finite (a i) -> finite (b i) -> (Z.abs (za i * zb i) <= 2 ^ prec)%Z ->
  finite (prods i) /\ val (prods i) = IZR (za i * zb i).
Proof.
  intros Fa Fb L.
  assert (E : RN (val (a i) * val (b i)) = IZR (za i * zb i)).
  { rewrite Hza, Hzb, <- mult_IZR by auto. now apply RN_int. }
  assert (F : finite (prods i)).
  { apply mul_finite; auto. rewrite E, <- abs_IZR. unfold huge. rewrite powerRZ_bpow.
    assert (P1 : (0 < prec)%Z) by exact Hp. assert (P2 : (prec < emax)%Z) by exact He.
    apply Rle_lt_trans with (bpow radix2 prec); [|now apply bpow_lt].
    rewrite <- IZR_Zpower by lia. now apply IZR_le. }
  split; auto. destruct (@mul_val prec emax Hp He (a i) (b i) (Ha i) (Hb i) F) as (_ & _ & G). fold (prods i) in G. now rewrite G.
Qed.
End Dot.
