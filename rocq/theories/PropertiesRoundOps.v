(** * PropertiesRoundOps: C109, rounding error of element-wise operations and of the CRS-Dense product. *)
From Coq Require Import ZArith Reals Psatz Floats.SpecFloat Permutation.
From Flocq Require Import Core BinarySingleNaN.
From Verif Require Import Base Scalar Spec SumFacts Mem MemSpec VecModel VecSpec VecProof Observe DenseModel CrsModel CrsObserve CrsProof CrsSimProof CrsBlasProof CrsMiscProof
  EigModel PropertiesVec PropertiesCrs RoundSpec RoundProof RoundSum PropertiesRound RoundOpsSpec RoundOps.
Set Implicit Arguments.
Local Open Scope R_scope.

Section C109.
Variables prec emax : Z.
Hypothesis Hfmt : (0 < prec < emax)%Z.
Notation num := (num prec emax).
Notation u := (uro prec).
Notation eta := (tiny prec emax).
Let Hp : Prec_gt_0 prec := proj1 Hfmt.
Let He : Prec_lt_emax prec emax := proj2 Hfmt.
#[local] Hint Extern 0 (Scalar spec_float) => exact (ieee prec emax) : typeclass_instances.
Notation SF := (ieee prec emax).
Notation rounds := (rounds prec emax).
Notation near := (near prec emax).
Notation e1 := (err1 prec). Notation l1 := (lim1 prec). Notation e1u := (err1u prec emax). Notation l1u := (lim1u prec emax).
Definition nums (m : mem spec_float) (x : arg) := forall i, (i < a_len x)%nat -> num (el m x i).
Notation ev m x i := (val (el m x i)).
Notation ef m x i := (finite (el m x i)).

(** + - * / of two vectors *)
Theorem C109_add_sub_mul (m : mem spec_float) (a b y : arg) :
  a_len a = a_len y -> a_len b = a_len y -> arg_ok m a -> arg_ok m b -> arg_ok m y ->
  same_or_apart a y -> same_or_apart b y -> nums m a -> nums m b ->
  let ok i := ef m a i /\ ef m b i in
  let s i := ev m a i + ev m b i in let d i := ev m a i - ev m b i in let p i := ev m a i * ev m b i in
  rounds (k_vecadd a b y) m y ok s (fun i => e1 (s i)) (fun i => l1 (s i)) /\
  rounds (k_vml_add a b y) m y ok s (fun i => e1 (s i)) (fun i => l1 (s i)) /\
  rounds (k_vecsub a b y) m y ok d (fun i => e1 (d i)) (fun i => l1 (d i)) /\
  rounds (k_vml_sub a b y) m y ok d (fun i => e1 (d i)) (fun i => l1 (d i)) /\
  rounds (k_times a b y) m y ok p (fun i => e1u (p i)) (fun i => l1u (p i)) /\
  rounds (k_vml_mul a b y) m y ok p (fun i => e1u (p i)) (fun i => l1u (p i)).
Proof.
  intros L1 L2 A1 A2 A3 S1 S2 Na Nb ok s d p.
  repeat match goal with |- _ /\ _ => split end; eexists;
  (split; [first [apply C25_vecadd|apply C25_vml_add|apply C25_vecsub|apply C25_vml_sub|apply C25_times|apply C25_vml_mul]; auto|]);
  intros i Hi; assert (num (el m a i)) by (apply Na; lia); assert (num (el m b i)) by (apply Nb; lia);
  cbn [fadd fsub fmul ieee]; unfold s, d, p, ok; first [now apply near_add|now apply near_sub|now apply near_mul].
Qed.
Theorem C109_div (m : mem spec_float) (a b y : arg) :
  a_len a = a_len y -> a_len b = a_len y -> arg_ok m a -> arg_ok m b -> arg_ok m y ->
  same_or_apart a y -> same_or_apart b y -> nums m a -> nums m b -> (forall i, (i < a_len b)%nat -> ev m b i <> 0) ->
  rounds (k_vml_div a b y) m y (fun i => ef m a i) (fun i => ev m a i / ev m b i)
    (fun i => e1u (ev m a i / ev m b i)) (fun i => l1u (ev m a i / ev m b i)).
Proof.
  intros L1 L2 A1 A2 A3 S1 S2 Na Nb Nz. eexists. split; [apply C25_vml_div; auto|]. intros i Hi. apply near_div; auto; [apply Na|apply Nb|apply Nz]; lia.
Qed.
(** vector and scalar *)
Theorem C109_scalar (m : mem spec_float) (alpha : spec_float) (x y : arg) :
  a_len x = a_len y -> arg_ok m x -> arg_ok m y -> same_or_apart x y -> nums m x -> num alpha ->
  let ok i := ef m x i /\ finite alpha in
  let s i := ev m x i + val alpha in let d i := ev m x i - val alpha in let p i := ev m x i * val alpha in let q i := ev m x i / val alpha in
  rounds (k_vml_adds alpha x y) m y ok s (fun i => e1 (s i)) (fun i => l1 (s i)) /\
  rounds (k_vml_subs alpha x y) m y ok d (fun i => e1 (d i)) (fun i => l1 (d i)) /\
  rounds (k_vml_muls alpha x y) m y ok p (fun i => e1u (p i)) (fun i => l1u (p i)) /\
  rounds (k_times_scalar alpha x y) m y ok p (fun i => e1u (p i)) (fun i => l1u (p i)) /\
  (val alpha <> 0 -> rounds (k_vml_divs alpha x y) m y (fun i => ef m x i) q (fun i => e1u (q i)) (fun i => l1u (q i))) /\
  rounds (k_scal alpha x) m x ok p (fun i => e1u (p i)) (fun i => l1u (p i)).
Proof.
  intros L1 A1 A2 S1 Nx Na ok s d p q.
  split; [|split; [|split; [|split; [|split]]]].
  - eexists. split; [apply C25_vml_adds; auto|]. intros i Hi. apply near_add; auto. apply Nx. lia.
  - eexists. split; [apply C25_vml_subs; auto|]. intros i Hi. apply near_sub; auto. apply Nx. lia.
  - eexists. split; [apply C25_vml_muls; auto|]. intros i Hi. apply near_mul; auto. apply Nx. lia.
  - eexists. split; [apply C25_times_scalar; auto|]. intros i Hi. apply near_mul; auto. apply Nx. lia.
  - intros N. eexists. split; [apply C25_vml_divs; auto|]. intros i Hi. apply near_div; auto. apply Nx. lia.
  - eexists. split; [apply C25_scal; auto|]. intros i Hi. cbn [fmul ieee]. rewrite mul_comm_SF. apply near_mul; auto.
Qed.
(** axpy, xpay, axpyz *)
Theorem C109_axpy (m : mem spec_float) (alpha : spec_float) (x y : arg) :
  a_len x = a_len y -> arg_ok m x -> arg_ok m y -> same_or_apart x y -> nums m x -> nums m y -> num alpha ->
  rounds (k_axpy alpha x y) m y (fun i => ef m y i /\ finite alpha /\ ef m x i) (fun i => ev m y i + val alpha * ev m x i)
    (fun i => err_ax prec emax (ev m y i) (val alpha * ev m x i)) (fun i => lim_ax prec emax (ev m y i) (val alpha * ev m x i)) /\
  rounds (k_xpay alpha x y) m y (fun i => ef m x i /\ finite alpha /\ ef m y i) (fun i => ev m x i + val alpha * ev m y i)
    (fun i => err_ax prec emax (ev m x i) (val alpha * ev m y i)) (fun i => lim_ax prec emax (ev m x i) (val alpha * ev m y i)).
Proof.
  intros L1 A1 A2 S1 Nx Ny Na. split.
  - eexists. split; [apply C25_axpy; auto|]. intros i Hi. apply near_ax; auto. apply Nx. lia.
  - eexists. split; [apply C25_xpay; auto|]. intros i Hi. apply near_ax; auto. apply Nx. lia.
Qed.
Theorem C109_axpyz (m : mem spec_float) (alpha : spec_float) (x y z : arg) :
  a_len x = a_len z -> a_len y = a_len z -> arg_ok m x -> arg_ok m y -> arg_ok m z -> same_or_apart x z -> same_or_apart y z ->
  nums m x -> nums m y -> num alpha ->
  rounds (k_axpyz alpha x y z) m z (fun i => ef m y i /\ finite alpha /\ ef m x i) (fun i => ev m y i + val alpha * ev m x i)
    (fun i => err_ax prec emax (ev m y i) (val alpha * ev m x i)) (fun i => lim_ax prec emax (ev m y i) (val alpha * ev m x i)).
Proof.
  intros L1 L2 A1 A2 A3 S1 S2 Nx Ny Na. eexists. split; [apply C25_axpyz; auto|]. intros i Hi. cbn [fadd fmul ieee]. rewrite add_comm_SF.
  apply near_ax; auto; [apply Ny|apply Nx]; lia.
Qed.
(** square root *)
Theorem C109_sqrt (m : mem spec_float) (x y : arg) :
  a_len x = a_len y -> arg_ok m x -> arg_ok m y -> same_or_apart x y -> nums m x -> (forall i, (i < a_len x)%nat -> ef m x i -> 0 < ev m x i) ->
  exists f, computes (k_vml_sqrt x y) m y f /\ forall i, (i < a_len y)%nat ->
    ef m x i -> num (f i) /\ finite (f i) /\ Rabs (val (f i) - sqrt (ev m x i)) <= e1u (sqrt (ev m x i)).
Proof.
  intros L1 A1 A2 S1 Nx P. eexists. split; [apply C25_vml_sqrt; auto|]. intros i Hi F. cbn [fsqrt ieee].
  assert (N : num (el m x i)) by (apply Nx; lia). destruct (@sqrt_val prec emax Hp He (el m x i) N) as (Q1 & Q2).
  assert (FF : finite (SFsqrt prec emax (el m x i))).
  { apply Q1. specialize (P i ltac:(lia) F). destruct (el m x i) as [s|s| |[|] k e]; cbn in F; try contradiction; [left; split; eauto| |right; eauto].
    exfalso. cbn [val] in P. assert (0 < powerRZ 2 e) by (rewrite powerRZ_bpow; apply bpow_gt_0). assert (0 < IZR (Z.pos k)) by (apply IZR_lt; lia). nra. }
  split; [now apply sqrt_num|]. split; auto. destruct (Q2 FF) as (_ & _ & ->). now apply RN_any.
Qed.

(** CRS times Dense *)
Lemma dfn_num (B : dense spec_float) i j : all_num prec emax (d_val B) -> num (dense_fn B i j).
Proof.
  intros H. unfold dense_fn. destruct (nth_in_or_default (d_first B + (d_col B * i + j)) (d_val B) f0) as [Hi| ->]; [|reflexivity].
  unfold all_num in H. rewrite Forall_forall in H. now apply H.
Qed.
Lemma fold_fl l (g : nat -> spec_float) : all_num prec emax (map snd l) -> (forall j, num (g j)) ->
  fl_prod prec emax (fold_left (fun t p => fadd t (fmul (snd p) (g (fst p)))) l f0) (forall p, In p l -> finite (snd p) /\ finite (g (fst p))) (length l)
    (rsum (fun p => val (snd p) * val (g (fst p))) l) (rsum (fun p => Rabs (val (snd p)) * Rabs (val (g (fst p)))) l).
Proof.
  intros Hl Hg. pose (b := fun p : nat * spec_float => g (fst p)).
  assert (C : forall p, In p l -> ea prec emax p = snd p).
  { intros p Hi. unfold ea. rewrite clean_id; auto. unfold all_num in Hl. rewrite Forall_forall in Hl. apply Hl. now apply in_map. }
  assert (EF : fold_left (fun t p => fadd t (fmul (snd p) (g (fst p)))) l f0 = fold_left (fun t p => fadd t (prods prec emax (ea prec emax) b p)) l f0).
  { generalize (@f0 _ SF). clear - C. induction l as [|p l IH]; intros z; cbn [fold_left]; auto. unfold prods at 2. rewrite (C p) by (now left).
    apply IH. intros q Hq. apply C. now right. }
  rewrite EF.
  assert (Nn : forall p, num (ea prec emax p)) by (intros p; apply clean_num).
  assert (Nb : forall p, num (b p)) by (intros p; apply Hg).
  assert (K : appr prec emax (prods prec emax (ea prec emax) b) l (fold_left (fun t p => fadd t (prods prec emax (ea prec emax) b p)) l f0)).
  { apply (@tree_list _ _ SF).
    - apply appr_nil.
    - intros i. apply appr_one. intros p. now apply prods_num.
    - intros. apply appr_add; auto. }
  destruct (@dot_appr prec emax Hp He _ (ea prec emax) b Nn Nb l _ K) as (D1 & D2 & D3).
  set (r := fold_left _ l f0) in *.
  rewrite (@rsum_ext _ (fun i => val (ea prec emax i) * val (b i)) (fun p => val (snd p) * val (g (fst p)))) in D2 by (intros i Hi; rewrite (C i Hi); reflexivity).
  rewrite (@rsum_ext _ (fun i => Rabs (val (ea prec emax i) * val (b i))) (fun p => Rabs (val (snd p)) * Rabs (val (g (fst p))))) in D2, D3
    by (intros i Hi; rewrite (C i Hi); apply Rabs_mult).
  split; auto. split.
  - intros F. destruct (D2 F) as (G1 & G2). split; auto. intros p Hi. rewrite <- (C p Hi) at 1. now apply G1.
  - intros F L. apply D3; auto. intros p Hi. rewrite (C p Hi). now apply F.
Qed.
Lemma rsum_abs_prod l (g : nat -> spec_float) : Rabs (rsum (fun p : nat * spec_float => val (snd p) * val (g (fst p))) l) <=
  rsum (fun p => Rabs (val (snd p)) * Rabs (val (g (fst p)))) l.
Proof. eapply Rle_trans; [apply rsum_abs|]. right. apply rsum_ext. intros. apply Rabs_mult. Qed.

(** a*tmp + b*c *)
Lemma axpb_fl a b c tmp ok k ex t : num a -> num b -> num c -> 0 <= t -> Rabs ex <= t -> fl_prod prec emax tmp ok k ex t ->
  near (SFadd prec emax (SFmul prec emax a tmp) (SFmul prec emax b c)) (finite a /\ finite b /\ finite c /\ ok) (val a * ex + val b * val c)
    (mm_err prec emax k (val a) (val b) t (val c)) (mm_lim prec emax k (val a) (val b) t (val c)).
Proof.
  intros Na Nb Nc Ht Hex (N1 & A1 & B1). pose proof (u_pos prec) as U. pose proof (eta_pos prec emax) as T.
  destruct (@near_mul prec emax Hp He a tmp Na N1) as (Nr & Ar & Br). destruct (@near_mul prec emax Hp He b c Nb Nc) as (Ns & As & Bs).
  set (r := SFmul prec emax a tmp) in *. set (s := SFmul prec emax b c) in *. unfold err1u, lim1u in *.
  pose proof (@RN_add prec emax Hp r s Nr Ns) as P. set (RNS := round _ _ _ (val r + val s)) in *.
  set (pw := (1 + u) ^ k) in *. set (z := INR k * (1 + u) ^ Nat.pred k * eta) in *.
  assert (PW : 1 <= pw) by apply pow_u_ge.
  assert (ZP : 0 <= z) by (unfold z; apply Rmult_le_pos; [apply Rmult_le_pos; [apply pos_INR|pose proof (@pow_u_ge prec (Nat.pred k)); lra]|lra]).
  set (lim := prod_lim prec emax k t). assert (EL : lim = pw * t + z) by reflexivity.
  set (bc := Rabs (val b * val c)) in *. assert (PB : 0 <= bc) by apply Rabs_pos. pose proof (Rabs_pos (val a)) as PA.
  assert (LP : 0 <= lim) by (rewrite EL; nra).
  assert (M1 : 0 <= Rabs (val a) * lim) by (apply Rmult_le_pos; lra).
  assert (TM : finite tmp -> Rabs (val tmp) <= lim /\ Rabs (val tmp - ex) <= (pw - 1) * t + z).
  { intros F. destruct (A1 F) as (_ & E). unfold prod_err, gam in E. fold pw z in E. split; auto. pose proof (abs_tri (val tmp) ex). rewrite EL. lra. }
  assert (KR : finite r -> finite tmp -> Rabs (val r - val a * ex) <= Rabs (val a) * (((1 + u) * pw - 1) * t + (1 + u) * z) + eta /\
     Rabs (val r) <= (1 + u) * (Rabs (val a) * lim) + eta).
  { intros Fr Ft. destruct (Ar Fr) as (_ & E). destruct (TM Ft) as (T1 & T2).
    rewrite Rabs_mult in E.
    assert (X1 : Rabs (val a) * Rabs (val tmp) <= Rabs (val a) * lim) by (apply Rmult_le_compat_l; auto).
    assert (X2 : u * (Rabs (val a) * Rabs (val tmp)) <= u * (Rabs (val a) * lim)) by (apply Rmult_le_compat_l; lra).
    split.
    - replace (val r - val a * ex) with ((val r - val a * val tmp) + val a * (val tmp - ex)) by ring.
      eapply Rle_trans; [apply Rabs_triang|]. rewrite (Rabs_mult (val a) (val tmp - ex)).
      assert (X3 : Rabs (val a) * Rabs (val tmp - ex) <= Rabs (val a) * ((pw - 1) * t + z)) by (apply Rmult_le_compat_l; auto).
      rewrite EL in X2. nra.
    - pose proof (abs_tri (val r) (val a * val tmp)) as Q. rewrite (Rabs_mult (val a) (val tmp)) in Q. lra. }
  assert (KS : finite s -> Rabs (val s - val b * val c) <= u * bc + eta) by (intros F; now apply As).
  assert (KK : finite r -> finite s -> finite tmp -> Rabs (RNS - (val a * ex + val b * val c)) <= mm_err prec emax k (val a) (val b) t (val c)).
  { intros Fr Fs Ft. destruct (KR Fr Ft) as (R1 & _). specialize (KS Fs).
    assert (S1 : Rabs (val r + val s - (val a * ex + val b * val c)) <= Rabs (val a) * (((1 + u) * pw - 1) * t + (1 + u) * z) + eta + (u * bc + eta)).
    { replace (val r + val s - (val a * ex + val b * val c)) with ((val r - val a * ex) + (val s - val b * val c)) by ring.
      eapply Rle_trans; [apply Rabs_triang|]. lra. }
    assert (S2 : Rabs (val a * ex + val b * val c) <= Rabs (val a) * t + bc).
    { eapply Rle_trans; [apply Rabs_triang|]. rewrite (Rabs_mult (val a) ex). assert (Rabs (val a) * Rabs ex <= Rabs (val a) * t) by (apply Rmult_le_compat_l; auto). fold bc. lra. }
    pose proof (abs_tri (val r + val s) (val a * ex + val b * val c)) as S3.
    assert (S4 : u * Rabs (val r + val s) <= u * (Rabs (val a) * (((1 + u) * pw - 1) * t + (1 + u) * z) + eta + (u * bc + eta) + (Rabs (val a) * t + bc)))
      by (apply Rmult_le_compat_l; lra).
    replace (RNS - (val a * ex + val b * val c)) with ((RNS - (val r + val s)) + (val r + val s - (val a * ex + val b * val c))) by ring.
    eapply Rle_trans; [apply Rabs_triang|]. unfold mm_err, gam. rewrite pow_add. fold pw bc. cbn [pow].
    replace ((1 + u) * ((1 + u) * (1 + u) ^ Nat.pred k * (INR k * Rabs (val a)) + 2) * eta) with ((1 + u) * ((1 + u) * (Rabs (val a) * z)) + 2 * (1 + u) * eta) by (unfold z; ring).
    lra. }
  split; [now apply add_num|]. split.
  - intros F. destruct (add_val Hp He Nr Ns F) as (Fr & Fs & E). destruct (Ar Fr) as ((Fa & Ft) & _). destruct (As Fs) as ((Fb & Fc) & _).
    destruct (A1 Ft) as (O & _). split; [tauto|]. rewrite E. now apply KK.
  - intros (Fa & Fb & Fc & O) L. unfold mm_lim in L. fold lim bc in L.
    assert (G : 0 <= u * (Rabs (val a) * lim) /\ 0 <= u * bc /\ 0 <= u * ((1 + u) * (Rabs (val a) * lim + bc)) /\ 0 <= u * eta).
    { repeat split; apply Rmult_le_pos; try lra. apply Rmult_le_pos; lra. }
    assert (Ft : finite tmp) by (apply B1; auto; fold lim; lra). destruct (TM Ft) as (T1 & _).
    assert (X1 : Rabs (val a) * Rabs (val tmp) <= Rabs (val a) * lim) by (apply Rmult_le_compat_l; auto).
    assert (X2 : u * (Rabs (val a) * Rabs (val tmp)) <= u * (Rabs (val a) * lim)) by (apply Rmult_le_compat_l; lra).
    assert (Fr : finite r) by (apply Br; [auto|]; rewrite Rabs_mult; lra).
    assert (Fs : finite s) by (apply Bs; [auto|]; fold bc; lra).
    apply add_finite; auto. fold RNS. destruct (KR Fr Ft) as (_ & R2). specialize (KS Fs).
    pose proof (abs_tri (val s) (val b * val c)) as S1. fold bc in S1. pose proof (Rabs_triang (val r) (val s)) as S2.
    pose proof (abs_tri RNS (val r + val s)) as S3.
    assert (S4 : u * Rabs (val r + val s) <= u * ((1 + u) * (Rabs (val a) * lim) + eta + (u * bc + eta) + bc)) by (apply Rmult_le_compat_l; lra).
    lra.
Qed.

Theorem C109_crs_dense (a b : spec_float) (A : crs spec_float) (B C : dense spec_float) :
  crs_readable A -> dense_ok B -> dense_ok C -> m_col A = d_row B -> m_row A = d_row C -> d_col B = d_col C ->
  num a -> num b -> all_num prec emax (stored A) -> all_num prec emax (d_val B) -> all_num prec emax (d_val C) ->
  exists C', crs_dense_matmul_scalar a A B b C = Ok C' /\ d_row C' = d_row C /\ d_col C' = d_col C /\
    forall i j, (i < m_row A)%nat -> (j < d_col B)%nat ->
      near (dense_fn C' i j)
        (finite a /\ finite b /\ finite (dense_fn C i j) /\ forall p, In p (crs_row A i) -> finite (snd p) /\ finite (dense_fn B (fst p) j))
        (val a * rmv (m_col A) (real_mat A) (fun k => dval B k j) i + val b * dval C i j)
        (mm_err prec emax (row_cnt A i) (val a) (val b) (abs_prod A B i j) (dval C i j))
        (mm_lim prec emax (row_cnt A i) (val a) (val b) (abs_prod A B i j) (dval C i j)).
Proof.
  intros W WB WC E1 E2 E3 Na Nb NA NB NC. destruct (C18_crs_dense_scalar a A B b C W WB WC E1 E2 E3) as (C' & EC & _ & R1 & R2 & _ & G).
  exists C'. do 3 (split; auto). intros i j Hi Hj. rewrite G by auto. unfold abs_prod, real_mat, abs_mat.
  rewrite !(@row_real prec emax) by auto.
  change dval with (fun B k j => val (@dense_fn _ SF B k j)). cbv beta.
  apply axpb_fl; auto using dfn_num.
  - apply rsum_pos. intros. apply Rmult_le_pos; apply Rabs_pos.
  - apply (@rsum_abs_prod (crs_row A i) (fun k => dense_fn B k j)).
  - unfold row_sum. change (row_cnt A i) with (length (@crs_row _ SF A i)). apply (@fold_fl (@crs_row _ SF A i) (fun k => @dense_fn _ SF B k j)); [now apply row_stored|]. intros. now apply dfn_num.
Qed.

(** the AVX loop: starts from b*C, adds (a*v)*B *)
Lemma fold_start_fl l a z0 (g : nat -> spec_float) : num a -> num z0 -> all_num prec emax (map snd l) -> (forall j, num (g j)) ->
  let t := rsum (fun p => Rabs (val (snd p)) * Rabs (val (g (fst p)))) l in
  let mt := rsum (fun p : nat * spec_float => Rabs (val (g (fst p)))) l in
  let vt := rsum (fun p : nat * spec_float => Rabs (val (snd p))) l in
  let k := length l in
  near (fold_left (fun s p => fadd s (fmul (fmul a (snd p)) (g (fst p)))) l z0)
    (finite z0 /\ forall p, In p l -> finite a /\ finite (snd p) /\ finite (g (fst p)))
    (val z0 + val a * rsum (fun p => val (snd p) * val (g (fst p))) l)
    (gam prec k * Rabs (val z0) + gam prec (k + 2) * (Rabs (val a) * t) + (1 + u) ^ k * ((1 + u) * mt + INR k) * eta)
    ((1 + u) * (Rabs (val a) * vt) + INR k * eta +
     (1 + u) ^ k * (Rabs (val z0) + (1 + u) * ((1 + u) * (Rabs (val a) * t)) + ((1 + u) * mt + INR k) * eta)).
Proof.
  intros Na Nz Hl Hg t mt vt k. pose proof (u_pos prec) as U. pose proof (eta_pos prec emax) as T.
  pose (av := fun p : nat * spec_float => SFmul prec emax a (clean prec emax (snd p))).
  pose (f := fun q : option (nat * spec_float) => match q with None => z0 | Some p => SFmul prec emax (av p) (g (fst p)) end).
  assert (Nav : forall p, num (av p)) by (intros p; apply mul_num; auto; apply clean_num).
  assert (Nf : forall q, num (f q)) by (intros [p|]; cbn [f]; auto; apply mul_num; auto).
  assert (C : forall p, In p l -> clean prec emax (snd p) = snd p).
  { intros p Hi. rewrite clean_id; auto. unfold all_num in Hl. rewrite Forall_forall in Hl. apply Hl. now apply in_map. }
  pose (L := None :: map Some l).
  assert (EF : fold_left (fun s p => fadd s (fmul (fmul a (snd p)) (g (fst p)))) l z0 = fold_left (fun s q => fadd s (f q)) (map Some l) z0).
  { assert (Q : forall z, fold_left (fun s p => fadd s (fmul (fmul a (snd p)) (g (fst p)))) l z = fold_left (fun s q => fadd s (f q)) (map Some l) z); [|apply Q].
    clear - C. induction l as [|p l IH]; intros z; cbn [fold_left map]; auto. replace (f (Some p)) with (fmul (fmul a (snd p)) (g (fst p))) by (unfold f, av; rewrite (C p) by (now left); reflexivity).
    apply IH. intros q Hq. apply C. now right. }
  rewrite EF. clear EF.
  assert (K : appr prec emax f L (fold_left (fun s q => fadd s (f q)) (map Some l) z0)).
  { apply (@tree_fold _ _ SF f (appr prec emax f)) with (I := [None]).
    - intros i. now apply appr_one.
    - intros. now apply appr_add.
    - now apply (@appr_one prec emax _ f Nf None). }
  set (r := fold_left _ _ z0) in *. destruct K as (K1 & K2 & K3).
  assert (EL : Nat.pred (length L) = k) by (unfold L; cbn; now rewrite map_length).
  rewrite EL in K2, K3. unfold L in K2, K3. cbn [rsum fold_right] in K2, K3.
  change (fold_right (fun q s => val (f q) + s) 0 (map Some l)) with (rsum (fun q => val (f q)) (map Some l)) in K2.
  change (fold_right (fun q s => Rabs (val (f q)) + s) 0 (map Some l)) with (rsum (fun q => Rabs (val (f q))) (map Some l)) in K2, K3.
  rewrite !rsum_map in K2. rewrite rsum_map in K3. cbn [f] in K2, K3.
  set (pr := fun p : nat * spec_float => SFmul prec emax (av p) (g (fst p))) in *.
  change (rsum (fun p => val (SFmul prec emax (av p) (g (fst p)))) l) with (rsum (fun p => val (pr p)) l) in K2.
  change (rsum (fun p => Rabs (val (SFmul prec emax (av p) (g (fst p))))) l) with (rsum (fun p => Rabs (val (pr p))) l) in K2, K3.
  set (X := fun p : nat * spec_float => val a * (val (snd p) * val (g (fst p)))).
  set (Y := fun p : nat * spec_float => Rabs (val a) * (Rabs (val (snd p)) * Rabs (val (g (fst p))))).
  set (Ep := fun p : nat * spec_float => ((1 + u) * Rabs (val (g (fst p))) + 1) * eta).
  assert (EX : forall p, Rabs (X p) = Y p) by (intros p; unfold X, Y; now rewrite !Rabs_mult).
  assert (PY : forall p, 0 <= Y p) by (intros p; rewrite <- EX; apply Rabs_pos).
  assert (TP : forall p, In p l -> finite (pr p) ->
     finite a /\ finite (snd p) /\ finite (g (fst p)) /\ Rabs (val (pr p) - X p) <= gam prec 2 * Y p + Ep p).
  { intros p Hi F. destruct (@near_mul prec emax Hp He (av p) (g (fst p)) (Nav p) (Hg _)) as (_ & A1 & _). destruct (A1 F) as ((F1 & F2) & Q1).
    destruct (@near_mul prec emax Hp He a (clean prec emax (snd p)) Na (clean_num _ _ _)) as (_ & A2 & _). fold (av p) in A2. destruct (A2 F1) as ((F3 & F4) & Q2).
    rewrite (C p Hi) in *. do 3 (split; auto). unfold err1u in *. fold (pr p) in Q1.
    set (gv := val (g (fst p))) in *. set (v := val (snd p)) in *. set (w := val (av p)) in *.
    assert (Q3 : Rabs (w * gv - X p) <= (u * Rabs (val a * v) + eta) * Rabs gv).
    { unfold X. fold v gv. replace (w * gv - val a * (v * gv)) with ((w - val a * v) * gv) by ring. rewrite Rabs_mult. apply Rmult_le_compat_r; auto. apply Rabs_pos. }
    assert (Q4 : u * Rabs (val a * v) * Rabs gv = u * Y p) by (unfold Y; fold v gv; rewrite Rabs_mult; ring).
    pose proof (abs_tri (w * gv) (X p)) as Q5. rewrite EX in Q5.
    assert (Q6 : u * Rabs (w * gv) <= u * ((u * Rabs (val a * v) + eta) * Rabs gv + Y p)) by (apply Rmult_le_compat_l; lra).
    replace (val (pr p) - X p) with ((val (pr p) - w * gv) + (w * gv - X p)) by ring. eapply Rle_trans; [apply Rabs_triang|].
    unfold gam, Ep. fold gv. cbn [pow]. nra. }
  assert (SE : rsum Ep l = ((1 + u) * mt + INR k) * eta).
  { unfold Ep. transitivity (eta * rsum (fun p : nat * spec_float => (1 + u) * Rabs (val (g (fst p))) + 1) l).
    - rewrite <- rsum_scal. apply rsum_ext. intros; ring.
    - rewrite rsum_plus, rsum_scal, rsum_const. fold mt k. ring. }
  assert (SY : rsum Y l = Rabs (val a) * t) by (unfold Y, t; now rewrite rsum_scal).
  assert (SX : rsum X l = val a * rsum (fun p => val (snd p) * val (g (fst p))) l) by (unfold X; now rewrite rsum_scal).
  assert (PEp : 0 <= rsum Ep l).
  { apply rsum_pos. intros p _. unfold Ep. apply Rmult_le_pos; [|lra]. pose proof (Rabs_pos (val (g (fst p)))). nra. }
  assert (PSY : 0 <= rsum Y l) by (apply rsum_pos; auto).
  assert (SUMS : (forall p, In p l -> finite (pr p)) ->
     Rabs (rsum (fun p => val (pr p)) l - rsum X l) <= gam prec 2 * rsum Y l + rsum Ep l /\
     rsum (fun p => Rabs (val (pr p))) l <= (1 + u) * ((1 + u) * rsum Y l) + rsum Ep l).
  { intros F. split.
    - rewrite rsum_sub. eapply Rle_trans; [apply rsum_abs|]. rewrite <- rsum_scal, <- rsum_plus. apply rsum_le. intros p Hi. now apply TP; auto.
    - rewrite <- !rsum_scal, <- rsum_plus. apply rsum_le. intros p Hi. destruct (TP p Hi (F p Hi)) as (_ & _ & _ & Q).
      pose proof (abs_tri (val (pr p)) (X p)) as Q5. rewrite EX in Q5. unfold gam in Q. cbn [pow] in Q. lra. }
  assert (PWk : 1 <= (1 + u) ^ k) by apply pow_u_ge. set (pw := (1 + u) ^ k) in *.
  split; auto. split.
  - intros F. destruct (K2 F) as (FA & Q).
    assert (Fp : forall p, In p l -> finite (pr p)) by (intros p Hi; apply (FA (Some p)); right; now apply in_map).
    split.
    { split; [apply (FA None); now left|]. intros p Hi. destruct (TP p Hi (Fp p Hi)) as (? & ? & ? & _). auto. }
    destruct (SUMS Fp) as (S1 & S2). rewrite (Rmult_assoc pw), <- SX, <- SE, <- SY.
    replace (val r - (val z0 + rsum X l)) with ((val r - (val z0 + rsum (fun p => val (pr p)) l)) + (rsum (fun p => val (pr p)) l - rsum X l)) by ring.
    eapply Rle_trans; [apply Rabs_triang|].
    assert (Q2 : gam prec k * (Rabs (val z0) + rsum (fun p => Rabs (val (pr p))) l) <= gam prec k * (Rabs (val z0) + ((1 + u) * ((1 + u) * rsum Y l) + rsum Ep l))).
    { apply Rmult_le_compat_l; [unfold gam; fold pw; lra|lra]. }
    unfold gam in *. rewrite pow_add. fold pw in Q, Q2 |- *. cbn [pow] in *. rewrite !Rmult_1_r in *. lra.
  - intros (Fz & FO) Lm. rewrite <- SE, <- SY in Lm.
    assert (PVt : 0 <= vt) by (apply rsum_pos; intros; apply Rabs_pos). pose proof (Rabs_pos (val a)) as PA. pose proof (Rabs_pos (val z0)) as PZ.
    assert (G0 : 0 <= INR k * eta) by (apply Rmult_le_pos; [apply pos_INR|lra]).
    assert (G1 : 0 <= (1 + u) * (Rabs (val a) * vt)) by (apply Rmult_le_pos; [lra|apply Rmult_le_pos; auto]).
    set (M := Rabs (val z0) + (1 + u) * ((1 + u) * rsum Y l) + rsum Ep l) in *.
    assert (G2' : 0 <= (1 + u) * ((1 + u) * rsum Y l)) by (apply Rmult_le_pos; [lra|apply Rmult_le_pos; lra]).
    assert (G2 : 0 <= M) by (unfold M; lra).
    assert (G3 : M <= pw * M) by nra.
    assert (Fp : forall p, In p l -> finite (pr p)).
    { intros p Hi. destruct (FO p Hi) as (F1 & F2 & F3). unfold pr.
      destruct (@near_mul prec emax Hp He a (clean prec emax (snd p)) Na (clean_num _ _ _)) as (_ & A2 & B2). fold (av p) in A2, B2. rewrite (C p Hi) in *.
      assert (Fv : finite (av p)).
      { apply B2; auto. unfold lim1u. rewrite Rabs_mult.
        assert (Rabs (val (snd p)) <= vt) by (apply (@rsum_in _ (fun p : nat * spec_float => Rabs (val (snd p)))); auto; intros; apply Rabs_pos).
        assert (Rabs (val a) * Rabs (val (snd p)) <= Rabs (val a) * vt) by (apply Rmult_le_compat_l; auto).
        assert (1 <= INR k). { change 1 with (INR 1). apply le_INR. unfold k. destruct l; [contradiction|cbn; lia]. }
        nra. }
      destruct (A2 Fv) as (_ & Q2). destruct (@near_mul prec emax Hp He (av p) (g (fst p)) (Nav p) (Hg _)) as (_ & _ & B1). apply B1; auto.
      unfold lim1u, err1u in *. set (gv := val (g (fst p))) in *. set (v := val (snd p)) in *. set (w := val (av p)) in *.
      assert (Q3 : Rabs w <= (1 + u) * Rabs (val a * v) + eta) by (pose proof (abs_tri w (val a * v)); lra).
      assert (Q4 : Rabs (w * gv) <= ((1 + u) * Rabs (val a * v) + eta) * Rabs gv) by (rewrite Rabs_mult; apply Rmult_le_compat_r; auto; apply Rabs_pos).
      assert (Q5 : Rabs (val a * v) * Rabs gv = Y p) by (unfold Y; fold v gv; rewrite Rabs_mult; ring).
      assert (Q6 : (1 + u) * Rabs (w * gv) + eta <= (1 + u) * ((1 + u) * Y p) + Ep p).
      { unfold Ep. fold gv. assert ((1 + u) * Rabs (w * gv) <= (1 + u) * (((1 + u) * Rabs (val a * v) + eta) * Rabs gv)) by (apply Rmult_le_compat_l; lra). nra. }
      assert (Q7 : Y p <= rsum Y l) by (apply (@rsum_in _ Y); auto).
      assert (Q8 : Ep p <= rsum Ep l).
      { apply (@rsum_in _ Ep); auto. intros q _. unfold Ep. apply Rmult_le_pos; [|lra]. pose proof (Rabs_pos (val (g (fst q)))). nra. }
      assert ((1 + u) * ((1 + u) * Y p) <= (1 + u) * ((1 + u) * rsum Y l)) by (apply Rmult_le_compat_l; [lra|apply Rmult_le_compat_l; lra]).
      unfold M in *. lra. }
    apply K3.
    + intros [p|] Hi; [|exact Fz]. destruct Hi as [Hi|Hi]; [discriminate|]. apply in_map_iff in Hi. destruct Hi as (q & E & Hq). injection E as ->. now apply Fp.
    + destruct (SUMS Fp) as (_ & S2). eapply Rle_lt_trans; [|exact Lm].
      assert (pw * (Rabs (val z0) + rsum (fun p => Rabs (val (pr p))) l) <= pw * M) by (apply Rmult_le_compat_l; [lra|unfold M; lra]). lra.
Qed.

Theorem C109_crs_dense_avx entry (a b : spec_float) (A : crs spec_float) (B C : dense spec_float) :
  entry = avx_entry_double \/ entry = avx_entry_float ->
  crs_readable A -> dense_ok B -> dense_ok C -> m_col A = d_row B -> m_row A = d_row C -> d_col B = d_col C ->
  num a -> num b -> all_num prec emax (stored A) -> all_num prec emax (d_val B) -> all_num prec emax (d_val C) ->
  exists C', crs_dense_matmul_avx entry a A B b C = Ok C' /\ d_row C' = d_row C /\ d_col C' = d_col C /\
    forall i j, (i < m_row A)%nat -> (j < d_col B)%nat ->
      near (dense_fn C' i j)
        ((finite b /\ finite (dense_fn C i j)) /\ forall p, In p (crs_row A i) -> finite a /\ finite (snd p) /\ finite (dense_fn B (fst p) j))
        (val a * rmv (m_col A) (real_mat A) (fun k => dval B k j) i + val b * dval C i j)
        (mm_err_avx prec emax (row_cnt A i) (val a) (val b) (abs_prod A B i j) (dval C i j) (met A B i j))
        (mm_lim_avx prec emax (row_cnt A i) (val a) (val b) (abs_prod A B i j) (dval C i j) (met A B i j) (row_abs A i)).
Proof.
  intros Hen W WB WC E1 E2 E3 Na Nb NA NB NC. destruct (C18_crs_dense_avx entry a A B b C Hen W WB WC E1 E2 E3) as (C' & EC & _ & R1 & R2 & _ & G).
  exists C'. do 3 (split; auto). intros i j Hi Hj. rewrite G by auto. unfold abs_prod, real_mat, abs_mat.
  rewrite !(@row_real prec emax) by auto. change dval with (fun B k j => val (@dense_fn _ SF B k j)). cbv beta.
  unfold row_sum. set (c := dense_fn C i j). assert (Nc : num c) by (now apply dfn_num).
  pose proof (u_pos prec) as U. pose proof (eta_pos prec emax) as T.
  destruct (@near_mul prec emax Hp He b c Nb Nc) as (Nz & Az & Bz). set (z0 := SFmul prec emax b c) in *.
  change (@fmul _ SF b c) with z0.
  destruct (@fold_start_fl (crs_row A i) a z0 (fun k => dense_fn B k j) Na Nz (@row_stored prec emax A i Hi NA) (fun k => @dfn_num B k j NB)) as (K1 & K2 & K3).
  set (r := fold_left _ _ z0) in *.
  change (rsum (fun p : nat * spec_float => Rabs (val (dense_fn B (fst p) j))) (crs_row A i)) with (met A B i j) in *.
  change (rsum (fun p : nat * spec_float => Rabs (val (snd p))) (crs_row A i)) with (row_abs A i) in *.
  change (length (crs_row A i)) with (row_cnt A i) in *.
  set (t := rsum (fun p => Rabs (val (snd p)) * Rabs (val (dense_fn B (fst p) j))) (crs_row A i)) in *. set (s := rsum (fun p => val (snd p) * val (dense_fn B (fst p) j)) (crs_row A i)) in *.
  set (k := row_cnt A i) in *. set (mt := met A B i j) in *. set (vt := row_abs A i) in *.
  unfold err1u, lim1u in *. set (bc := Rabs (val b * val c)) in *. assert (PB : 0 <= bc) by apply Rabs_pos.
  assert (PW : 1 <= (1 + u) ^ k) by apply pow_u_ge.
  assert (Pt : 0 <= t) by (apply rsum_pos; intros; apply Rmult_le_pos; apply Rabs_pos).
  assert (Pm : 0 <= mt) by (apply rsum_pos; intros; apply Rabs_pos). assert (Pv : 0 <= vt) by (apply rsum_pos; intros; apply Rabs_pos).
  pose proof (Rabs_pos (val a)) as PA. pose proof (pos_INR k) as PK.
  assert (Z1 : finite z0 -> Rabs (val z0) <= (1 + u) * bc + eta).
  { intros F. destruct (Az F) as (_ & Q). pose proof (abs_tri (val z0) (val b * val c)). fold bc in H. lra. }
  split; [exact K1|]. split.
  - intros F. destruct (K2 F) as ((Fz & FO) & Q). destruct (Az Fz) as (Fbc & Qz). split; [tauto|]. specialize (Z1 Fz).
    replace (val r - (val a * s + val b * val c)) with ((val r - (val z0 + val a * s)) + (val z0 - val b * val c)) by ring.
    eapply Rle_trans; [apply Rabs_triang|]. unfold mm_err_avx. fold bc.
    assert (GP : 0 <= gam prec k) by (unfold gam; lra).
    assert (gam prec k * Rabs (val z0) <= gam prec k * ((1 + u) * bc + eta)) by (apply Rmult_le_compat_l; auto).
    assert (X : gam prec k * ((1 + u) * bc + eta) + (u * bc + eta) <= gam prec (k + 2) * bc + (1 + u) ^ k * eta).
    { unfold gam. rewrite pow_add. cbn [pow]. set (pw := (1 + u) ^ k) in *.
      assert (0 <= pw * ((1 + u) * (u * bc))) by (apply Rmult_le_pos; [lra|apply Rmult_le_pos; [lra|apply Rmult_le_pos; lra]]). nra. }
    nra.
  - intros ((Fb & Fc) & FO) L. unfold mm_lim_avx in L. fold bc in L. set (pw := (1 + u) ^ k) in *.
    assert (P1 : 0 <= (1 + u) * (Rabs (val a) * vt)) by (apply Rmult_le_pos; [lra|apply Rmult_le_pos; auto]).
    assert (P2 : 0 <= (1 + u) * ((1 + u) * (Rabs (val a) * t))) by (repeat (apply Rmult_le_pos; try lra)).
    assert (P3 : 0 <= ((1 + u) * mt + INR k) * eta) by (apply Rmult_le_pos; [|lra]; assert (0 <= (1 + u) * mt) by (apply Rmult_le_pos; lra); lra).
    assert (P4 : 0 <= INR k * eta) by (apply Rmult_le_pos; lra).
    assert (P5 : 0 <= (1 + u) * bc) by (apply Rmult_le_pos; lra).
    set (M := (1 + u) * ((1 + u) * (Rabs (val a) * t)) + (1 + u) * bc + ((1 + u) * mt + INR k + 1) * eta) in *.
    assert (PM : (1 + u) * bc + eta <= M) by (unfold M; lra). assert (PM2 : M <= pw * M) by nra.
    assert (Fz : finite z0) by (apply Bz; [auto|fold bc; lra]). specialize (Z1 Fz). apply K3; [auto|].
    eapply Rle_lt_trans; [|exact L]. apply Rplus_le_compat_l. apply Rmult_le_compat_l; [lra|]. unfold M. lra.
Qed.
End C109.

(** double: the two builds of the CRS-Dense product differ by at most the sum of the two bounds *)
Theorem C109_builds_agree (a b : spec_float) (A : crs spec_float) (B C C1 C2 : dense spec_float) i j :
  @crs_readable _ A -> dense_ok B -> dense_ok C -> m_col A = d_row B -> m_row A = d_row C -> d_col B = d_col C ->
  num 53 1024 a -> num 53 1024 b -> all_num 53 1024 (stored A) -> all_num 53 1024 (d_val B) -> all_num 53 1024 (d_val C) ->
  @crs_dense_matmul_scalar _ b64scalar a A B b C = Ok C1 ->
  @crs_dense_matmul_avx _ b64scalar (@avx_entry_double _ b64scalar) a A B b C = Ok C2 ->
  (i < m_row A)%nat -> (j < d_col B)%nat -> finite (@dense_fn _ b64scalar C1 i j) -> finite (@dense_fn _ b64scalar C2 i j) ->
  Rabs (dval C1 i j - dval C2 i j) <=
    mm_err 53 1024 (row_cnt A i) (val a) (val b) (abs_prod A B i j) (dval C i j) +
    mm_err_avx 53 1024 (row_cnt A i) (val a) (val b) (abs_prod A B i j) (dval C i j) (met A B i j).
Proof.
  intros W WB WC E1 E2 E3 Na Nb NA NB NC H1 H2 Hi Hj F1 F2.
  destruct (@C109_crs_dense 53 1024 ltac:(lia) a b A B C W WB WC E1 E2 E3 Na Nb NA NB NC) as (D1 & Q1 & _ & _ & G1).
  destruct (@C109_crs_dense_avx 53 1024 ltac:(lia) (@avx_entry_double _ b64scalar) a b A B C (or_introl eq_refl) W WB WC E1 E2 E3 Na Nb NA NB NC) as (D2 & Q2 & _ & _ & G2).
  change (@crs_dense_matmul_scalar _ (ieee 53 1024)) with (@crs_dense_matmul_scalar _ b64scalar) in Q1.
  change (@crs_dense_matmul_avx _ (ieee 53 1024)) with (@crs_dense_matmul_avx _ b64scalar) in Q2.
  rewrite H1 in Q1. rewrite H2 in Q2. injection Q1 as ->. injection Q2 as ->.
  destruct (G1 i j Hi Hj) as (_ & K1 & _). destruct (G2 i j Hi Hj) as (_ & K2 & _). destruct (K1 F1) as (_ & L1). destruct (K2 F2) as (_ & L2).
  unfold dval at 1 2. unfold b64scalar in *. set (x := val _) in L1 |- *. set (y := val _) in L2 |- *.
  match type of L1 with Rabs (_ - ?e) <= _ => replace (x - y) with ((x - e) - (y - e)) by ring end.
  unfold Rminus at 1. eapply Rle_trans; [apply Rabs_triang|]. rewrite Rabs_Ropp. lra.
Qed.
(** integers again show the numbers: y = y + 3 x in double, x = (1, 2), y = (10, 20) *)
Example C109_example : let m : mem spec_float := [map b64_of_Z [1; 2; 10; 20]%Z] in let x := mkArg (0, 0)%nat 2 in let y := mkArg (0, 2)%nat 2 in
  arg_ok m x /\ arg_ok m y /\ same_or_apart x y /\ nums 53 1024 m x /\ nums 53 1024 m y /\ num 53 1024 (b64_of_Z 3) /\
  (forall i, (i < 2)%nat -> finite (@el _ b64scalar m x i) /\ finite (@el _ b64scalar m y i)) /\
  kernel_seq (@k_axpy _ b64scalar (b64_of_Z 3) x y) m = Ok [map b64_of_Z [1; 2; 13; 26]%Z].
Proof.
  intros m x y. split; [intros i Hi; unfold valid; cbn in *; lia|]. split; [intros i Hi; unfold valid; cbn in *; lia|].
  split; [right; intros i j Hi Hj; cbn in *; intros E; injection E; lia|].
  split; [intros i Hi; destruct i as [|[|i]]; cbn in Hi; try lia; vm_compute; reflexivity|].
  split; [intros i Hi; destruct i as [|[|i]]; cbn in Hi; try lia; vm_compute; reflexivity|].
  split; [reflexivity|]. split; [intros i Hi; destruct i as [|[|i]]; try lia; split; vm_compute; exact I|].
  vm_compute. reflexivity.
Qed.
(** [1 0 2; 0 3 0] times a 3x2 matrix in double: both builds, with a = 2, b = -1 *)
Example C109_crs_example : exists A B C C1, @crs_of_arrays _ b64scalar one_thread 2 3 3 [0;2;3]%nat [0;2;1]%nat (map b64_of_Z [1;2;3]%Z) = Ok A /\ @crs_readable _ A /\
  @dense_of_array _ b64scalar 3 2 (map b64_of_Z [1;2;3;4;5;6]%Z) = Ok B /\ dense_ok B /\
  @dense_of_array _ b64scalar 2 2 (map b64_of_Z [1;1;1;1]%Z) = Ok C /\ dense_ok C /\
  all_num 53 1024 (stored A) /\ all_num 53 1024 (d_val B) /\ all_num 53 1024 (d_val C) /\
  @crs_dense_matmul_scalar _ b64scalar (b64_of_Z 2) A B (b64_of_Z (-1)) C = Ok C1 /\
  @crs_dense_matmul_avx _ b64scalar (@avx_entry_double _ b64scalar) (b64_of_Z 2) A B (b64_of_Z (-1)) C = Ok C1 /\
  d_val C1 = map b64_of_Z [21;27;17;23]%Z /\ finite (@dense_fn _ b64scalar C1 1 1) /\ row_cnt A 0 = 2%nat.
Proof.
  do 4 eexists. split; [vm_compute; reflexivity|]. split.
  { apply (@crs_ok_readable _). unfold crs_ok, rpn, cin; cbn. repeat split; auto; intros i Hi; destruct i as [|[|[|i]]]; cbn; lia. }
  split; [vm_compute; reflexivity|]. split; [unfold dense_ok; cbn; lia|].
  split; [vm_compute; reflexivity|]. split; [unfold dense_ok; cbn; lia|].
  split; [repeat constructor|]. split; [repeat constructor|]. split; [repeat constructor|].
  split; [vm_compute; reflexivity|]. split; [vm_compute; reflexivity|]. split; [reflexivity|]. split; [exact I|reflexivity].
Qed.
Print Assumptions C109_add_sub_mul.
Print Assumptions C109_div.
Print Assumptions C109_scalar.
Print Assumptions C109_axpy.
Print Assumptions C109_axpyz.
Print Assumptions C109_sqrt.
Print Assumptions C109_crs_dense.
Print Assumptions C109_crs_dense_avx.
Print Assumptions C109_builds_agree.
