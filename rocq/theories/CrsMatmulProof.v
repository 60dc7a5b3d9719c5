(** * CrsMatmulProof: CRS * Dense, scalar and AVX paths *)
From Coq Require Import Ring.
From Verif Require Import Base Scalar Spec SumFacts Loops DenseModel CooModel Observe CooProof CooSortProof
  CooMiscProof CrsModel CrsObserve CrsProof CrsBlasProof.
Set Implicit Arguments.

Section CrsMatmul.
Context {F : Type} {SF : Scalar F} {SC : Schedule}.
Local Notation triple := (nat * nat * F)%type.
Local Notation D := (0, 0, f0).



Theorem crs_dense_scalar_ok (a : F) (A : crs F) (B : dense F) (b : F) (C : dense F) :
  crs_ok A -> dense_ok B -> dense_ok C ->
  m_col A = d_row B -> m_row A = d_row C -> d_col B = d_col C ->
  exists C', crs_dense_matmul_scalar a A B b C = Ok C' /\ dense_ok C' /\
    d_row C' = d_row C /\ d_col C' = d_col C /\ same_outside C C' /\
    forall i j, i < m_row A -> j < d_col B ->
      dense_fn C' i j = fadd (fmul a (row_sum f0 (fun v => v) (crs_row A i) B j)) (fmul b (dense_fn C i j)).
Proof.
  intros W (B1 & B2 & B3) (C1 & C2 & C3) HK HM HN. unfold crs_dense_matmul_scalar.
  rewrite HK, HM, HN, !Nat.eqb_refl. cbn [assert_ bind].
  set (N := d_col C) in *. set (M := d_row C) in *.
  destruct (@grid_loop F f0 N M (fun j i => d_first C + (i * N + j))
     (fun j i old => fadd (fmul a (row_sum f0 (fun v => v) (crs_row A i) B j)) (fmul b old))
     (fun j i v =>
      lo <- rd (m_rp A) i ;; hi <- rd (m_rp A) (i + 1) ;;
      tmp <- for_ lo hi (fun k t =>
        p <- rd (m_val A) (m_first A + k) ;; c <- rd (m_ci A) k ;;
        q <- rd (d_val B) (d_first B + (N * c + j)) ;;
        Ok (fadd t (fmul p q))) f0 ;;
      old <- rd v (d_first C + (i * N + j)) ;;
      wr v (d_first C + (i * N + j)) (fadd (fmul a tmp) (fmul b old))) (d_val C)) as (v & E & HL & H1 & H2).
  - intros j i Hj Hi. pose proof (rc_lt Hi Hj). rewrite C1. lia.
  - intros j i j' i' Hj Hi Hj' Hi' He.
    destruct (@rc_inj N i j i' j'); auto; lia.
  - intros j i w Hj Hi Hw. rewrite !rd_rp by (auto; lia). cbn [bind].
    rewrite (@crs_row_fold F SF F (fun t p => fadd t (fmul (snd p) (dense_fn B (fst p) j)))); auto; try lia.
    + cbn [bind]. assert (Hs : d_first C + (i * N + j) < length w).
      { pose proof (rc_lt Hi Hj). rewrite Hw, C1. lia. }
      rewrite (@rd_lt F w _ f0) by auto. cbn [bind]. rewrite wr_lt by auto. reflexivity.
    + intros k t Hk Hkn. rewrite rd_val, rd_ci by auto. cbn [bind].
      pose proof (cin_lt W Hkn) as Hc. rewrite HK in Hc.
      pose proof (rc_lt Hc Hj) as HH. pose proof B2 as B2'. rewrite HN in B2'.
      rewrite (@rd_lt F _ _ f0) by (rewrite B1; lia). cbn [bind].
      unfold dense_fn. rewrite HN. reflexivity.
  - fold M in E. rewrite E. cbn [bind]. exists (d_set_val C v). split; auto.
    split; [unfold dense_ok; dsimpl; repeat split; auto; lia|]. split; auto. split; auto. split.
    + split; auto. dsimpl. intros q Hq. apply H2. intros j i Hj Hi He.
      pose proof (rc_lt Hi Hj). fold M N in C2. rewrite C2 in Hq. lia.
    + intros i j Hi Hj. unfold dense_fn at 1. dsimpl. fold N.
      rewrite (Nat.mul_comm N i). rewrite (H1 j i) by (auto; lia).
      unfold dense_fn at 1. fold N. rewrite (Nat.mul_comm N i). reflexivity.
Qed.

(** *** the AVX kernels *)

(** what one entry must do to the output buffer *)
Definition entry_spec (entry : F -> F -> list F -> nat -> nat -> nat -> list F -> res (list F)) : Prop :=
  forall a v Bd Br Cr N Cd, Br + N <= length Bd -> Cr + N <= length Cd ->
  exists Cd', entry a v Bd Br Cr N Cd = Ok Cd' /\ length Cd' = length Cd /\
    forall q, nth q Cd' f0 = if (Cr <=? q) && (q <? Cr + N)
       then fadd (nth q Cd f0) (fmul (fmul a v) (nth (Br + (q - Cr)) Bd f0)) else nth q Cd f0.

Lemma simd_step_ok w (Av : F) Bd BB Cd CC : BB + w <= length Bd -> CC + w <= length Cd ->
  exists Cd', simd_step w Av Bd BB Cd CC = Ok Cd' /\ length Cd' = length Cd /\
    forall q, nth q Cd' f0 = if (CC <=? q) && (q <? CC + w)
       then fadd (nth q Cd f0) (fmul Av (nth (BB + (q - CC)) Bd f0)) else nth q Cd f0.
Proof.
  intros H1 H2. unfold simd_step.
  destruct (@for0_inv (list F) (fun l regs => regs = map (fun l => fadd (nth (CC + l) Cd f0) (fmul Av (nth (BB + l) Bd f0))) (seq 0 l)) w
    (fun l regs => q <- rd Bd (BB + l) ;; c <- rd Cd (CC + l) ;;
            Ok (regs ++ [fadd c (fmul Av q)])) []) as (regs & E & ->); auto.
  { intros l regs Hl ->. rewrite (@rd_lt F Bd _ f0) by lia. cbn [bind]. rewrite (@rd_lt F Cd _ f0) by lia. cbn [bind].
    eexists; split; [reflexivity|]. rewrite seq_S, map_app. reflexivity. }
  rewrite E. cbn [bind].
  destruct (@copy_loop F f0 w CC 0 (map (fun l => fadd (nth (CC + l) Cd f0) (fmul Av (nth (BB + l) Bd f0))) (seq 0 w)) Cd)
    as (t & E2 & HL & HN); [lia|rewrite map_length, seq_length; lia|].
  cbn [Nat.add] in E2. rewrite E2. exists t. split; auto. split; auto.
  intros q. rewrite HN. destruct (Nat.leb_spec CC q); cbn [andb]; auto.
  destruct (Nat.ltb_spec q (CC + w)); auto. cbn [Nat.add]. rewrite nth_map_seq by lia.
  cbn [Nat.add]. now replace (CC + (q - CC)) with q by lia.
Qed.

(** a step that handles lanes [j, j+w) *)
Definition step_spec (w : nat) (Av : F) (Bd : list F) (Br Cr N L : nat) (step : nat -> list F -> res (list F)) : Prop :=
  forall j Cd, j + w <= N -> length Cd = L ->
  exists Cd', step j Cd = Ok Cd' /\ length Cd' = L /\
    forall q, nth q Cd' f0 = if (Cr + j <=? q) && (q <? Cr + j + w)
       then fadd (nth q Cd f0) (fmul Av (nth (Br + (q - Cr)) Bd f0)) else nth q Cd f0.

Lemma simd_while_ok w Av Bd Br Cr N L step : 0 < w -> step_spec w Av Bd Br Cr N L step ->
  forall fuel j Cd, N < fuel + j -> j <= N -> length Cd = L ->
  exists Cd' j', simd_while fuel w N step j Cd = Ok (Cd', j') /\ length Cd' = L /\ j <= j' <= N /\
    forall q, nth q Cd' f0 = if (Cr + j <=? q) && (q <? Cr + j')
       then fadd (nth q Cd f0) (fmul Av (nth (Br + (q - Cr)) Bd f0)) else nth q Cd f0.
Proof.
  intros Hw HS. induction fuel as [|fuel IH]; intros j Cd Hf Hj HL; cbn [simd_while].
  - destruct (Nat.leb_spec (j + w) N); [lia|]. exists Cd, j. repeat split; auto.
    intros q. destruct (Nat.leb_spec (Cr + j) q); destruct (Nat.ltb_spec q (Cr + j)); cbn [andb]; auto; lia.
  - destruct (Nat.leb_spec (j + w) N) as [Hle|Hgt].
    + destruct (HS j Cd) as (C1 & E1 & L1 & N1); auto. rewrite E1. cbn [bind].
      destruct (IH (j + w) C1) as (C2 & j' & E2 & L2 & Hj' & N2); auto; try lia.
      exists C2, j'. split; auto. split; auto. split; [lia|].
      intros q. rewrite N2, N1.
      destruct (Nat.leb_spec (Cr + (j + w)) q); destruct (Nat.ltb_spec q (Cr + j'));
      destruct (Nat.leb_spec (Cr + j) q); destruct (Nat.ltb_spec q (Cr + j + w)); cbn [andb]; auto; lia.
    + exists Cd, j. repeat split; auto.
      intros q. destruct (Nat.leb_spec (Cr + j) q); destruct (Nat.ltb_spec q (Cr + j)); cbn [andb]; auto; lia.
Qed.

Lemma simd_rest_ok (a v : F) Bd Br Cr j N Cd : j <= N -> Br + N <= length Bd -> Cr + N <= length Cd ->
  exists Cd', simd_rest a v Bd Br Cr j N Cd = Ok Cd' /\ length Cd' = length Cd /\
    forall q, nth q Cd' f0 = if (Cr + j <=? q) && (q <? Cr + N)
       then fadd (nth q Cd f0) (fmul (fmul a v) (nth (Br + (q - Cr)) Bd f0)) else nth q Cd f0.
Proof.
  intros H1 H2 H3. unfold simd_rest.
  destruct (@elem_loop F f0 (fun l old => fadd old (fmul (fmul a v) (nth (Br + l) Bd f0))) j N Cr
    (fun j Cd => c <- rd Cd (Cr + j) ;; q <- rd Bd (Br + j) ;;
              wr Cd (Cr + j) (fadd c (fmul (fmul a v) q))) Cd) as (t & E & HL & HN); auto.
  - intros l t Hl HL. rewrite (@rd_lt F t _ f0) by lia. cbn [bind]. rewrite (@rd_lt F Bd _ f0) by lia. cbn [bind].
    apply wr_lt. lia.
  - exists t. auto.
Qed.

Lemma compose_ranges (P : nat -> bool -> F) Cr j N q (x : F) (g : F -> F) :
  j <= N ->
  (if (Cr + j <=? q) && (q <? Cr + N) then g (if (Cr <=? q) && (q <? Cr + j) then g x else x)
   else if (Cr <=? q) && (q <? Cr + j) then g x else x) =
  if (Cr <=? q) && (q <? Cr + N) then g x else x.
Proof.
  intros H. destruct (Nat.leb_spec (Cr + j) q); destruct (Nat.ltb_spec q (Cr + N));
  destruct (Nat.leb_spec Cr q); destruct (Nat.ltb_spec q (Cr + j)); cbn [andb]; auto; lia.
Qed.

Theorem avx_entry_double_ok : entry_spec avx_entry_double.
Proof.
  intros a v Bd Br Cr N Cd HB HC. unfold avx_entry_double.
  destruct (@simd_while_ok 4 (fmul a v) Bd Br Cr N (length Cd)
    (fun j Cd => simd_step 4 (fmul a v) Bd (Br + j) Cd (Cr + j)) ltac:(lia)) with (fuel := S N) (j := 0) (Cd := Cd)
    as (C1 & j & E & L1 & Hj & N1); try lia; auto.
  { intros j C Hj HL. destruct (@simd_step_ok 4 (fmul a v) Bd (Br + j) C (Cr + j)) as (C' & E & L & HN); try lia.
    exists C'. split; auto. split; [lia|]. intros q. rewrite HN.
    destruct (Nat.leb_spec (Cr + j) q); cbn [andb]; auto. destruct (q <? Cr + j + 4); auto.
    now replace (Br + j + (q - (Cr + j))) with (Br + (q - Cr)) by lia. }
  rewrite E. cbn [bind].
  destruct (@simd_rest_ok a v Bd Br Cr j N C1) as (C2 & E2 & L2 & N2); try lia.
  rewrite E2. exists C2. split; auto. split; [lia|]. intros q. rewrite N2, N1. rewrite Nat.add_0_r.
  apply (compose_ranges (fun _ _ => f0)) with (g := fun x => fadd x (fmul (fmul a v) (nth (Br + (q - Cr)) Bd f0))). lia.
Qed.

Lemma simd_step8 (a v : F) Bd Br Cr N L C j (o : nat) : j + o + 8 <= N -> Br + N <= length Bd -> Cr + N <= L ->
  length C = L ->
  exists C', simd_step 8 (fmul a v) Bd (Br + j + o) C (Cr + j + o) = Ok C' /\ length C' = L /\
  forall q, nth q C' f0 = if (Cr + (j + o) <=? q) && (q <? Cr + (j + o) + 8)
       then fadd (nth q C f0) (fmul (fmul a v) (nth (Br + (q - Cr)) Bd f0)) else nth q C f0.
Proof.
  intros Hj HB HC HL. destruct (@simd_step_ok 8 (fmul a v) Bd (Br + j + o) C (Cr + j + o)) as (C' & E & L' & HN); try lia.
  exists C'. split; auto. split; [lia|]. intros q. rewrite HN.
  replace (Cr + j + o) with (Cr + (j + o)) by lia.
  destruct (Nat.leb_spec (Cr + (j + o)) q); cbn [andb]; auto. destruct (q <? Cr + (j + o) + 8); auto.
  now replace (Br + j + o + (q - (Cr + (j + o)))) with (Br + (q - Cr)) by lia.
Qed.

Theorem avx_entry_float_ok : entry_spec avx_entry_float.
Proof.
  intros a v Bd Br Cr N Cd HB HC. unfold avx_entry_float.
  destruct (@simd_while_ok 32 (fmul a v) Bd Br Cr N (length Cd)
    (fun j Cd =>
      Cd <- simd_step 8 (fmul a v) Bd (Br + j) Cd (Cr + j) ;;
      Cd <- simd_step 8 (fmul a v) Bd (Br + j + 8) Cd (Cr + j + 8) ;;
      Cd <- simd_step 8 (fmul a v) Bd (Br + j + 16) Cd (Cr + j + 16) ;;
      simd_step 8 (fmul a v) Bd (Br + j + 24) Cd (Cr + j + 24)) ltac:(lia)) with (fuel := S N) (j := 0) (Cd := Cd)
    as (C1 & j & E & L1 & Hj & N1); try lia; auto.
  { intros j C Hj HL.
    destruct (@simd_step8 a v Bd Br Cr N (length Cd) C j 0) as (D1 & E1 & M1 & N1); try lia.
    rewrite !Nat.add_0_r in E1. rewrite E1. cbn [bind].
    destruct (@simd_step8 a v Bd Br Cr N (length Cd) D1 j 8) as (D2 & E2 & M2 & N2); try lia. rewrite E2. cbn [bind].
    destruct (@simd_step8 a v Bd Br Cr N (length Cd) D2 j 16) as (D3 & E3 & M3 & N3); try lia. rewrite E3. cbn [bind].
    destruct (@simd_step8 a v Bd Br Cr N (length Cd) D3 j 24) as (D4 & E4 & M4 & N4); try lia. rewrite E4.
    exists D4. split; auto. split; auto. intros q. rewrite N4, N3, N2, N1. clear.
    destruct (Nat.leb_spec (Cr + (j + 24)) q); destruct (Nat.ltb_spec q (Cr + (j + 24) + 8));
    destruct (Nat.leb_spec (Cr + (j + 16)) q); destruct (Nat.ltb_spec q (Cr + (j + 16) + 8));
    destruct (Nat.leb_spec (Cr + (j + 8)) q); destruct (Nat.ltb_spec q (Cr + (j + 8) + 8));
    destruct (Nat.leb_spec (Cr + (j + 0)) q); destruct (Nat.ltb_spec q (Cr + (j + 0) + 8));
    destruct (Nat.leb_spec (Cr + j) q); destruct (Nat.ltb_spec q (Cr + j + 32)); cbn [andb]; auto; lia. }
  rewrite E. cbn [bind].
  destruct (@simd_while_ok 8 (fmul a v) Bd Br Cr N (length Cd)
    (fun j Cd => simd_step 8 (fmul a v) Bd (Br + j) Cd (Cr + j)) ltac:(lia)) with (fuel := S N) (j := j) (Cd := C1)
    as (C2 & j2 & E2 & L2 & Hj2 & N2); try lia; auto.
  { intros l C Hl HL. destruct (@simd_step8 a v Bd Br Cr N (length Cd) C l 0) as (C' & E' & L' & HN); try lia.
    rewrite !Nat.add_0_r in *. exists C'. auto. }
  rewrite E2. cbn [bind].
  destruct (@simd_rest_ok a v Bd Br Cr j2 N C2) as (C3 & E3 & L3 & N3); try lia.
  rewrite E3. exists C3. split; auto. split; [lia|]. intros q. rewrite N3, N2, N1, Nat.add_0_r. clear - Hj Hj2.
  destruct (Nat.leb_spec (Cr + j2) q); destruct (Nat.ltb_spec q (Cr + N));
  destruct (Nat.leb_spec (Cr + j) q); destruct (Nat.ltb_spec q (Cr + j2));
  destruct (Nat.leb_spec Cr q); destruct (Nat.ltb_spec q (Cr + j)); cbn [andb]; auto; lia.
Qed.

Theorem crs_dense_avx_ok entry (a : F) (A : crs F) (B : dense F) (b : F) (C : dense F) :
  entry_spec entry -> crs_ok A -> dense_ok B -> dense_ok C ->
  m_col A = d_row B -> m_row A = d_row C -> d_col B = d_col C ->
  exists C', crs_dense_matmul_avx entry a A B b C = Ok C' /\ dense_ok C' /\
    d_row C' = d_row C /\ d_col C' = d_col C /\ same_outside C C' /\
    forall i j, i < m_row A -> j < d_col B ->
      dense_fn C' i j = row_sum (fmul b (dense_fn C i j)) (fun v => fmul a v) (crs_row A i) B j.
Proof.
  intros Hentry W (B1 & B2 & B3) (C1 & C2 & C3) HK HM HN. unfold crs_dense_matmul_avx.
  rewrite HK, HM, HN, !Nat.eqb_refl. cbn [assert_ bind].
  set (N := d_col C) in *. set (M := d_row C) in *.
  destruct (@elem_loop F f0 (fun _ old => fmul b old) 0 (M * N) (d_first C)
    (fun i v => c <- rd v (d_first C + i) ;; wr v (d_first C + i) (fmul b c)) (d_val C)) as (v0 & E0 & L0 & N0); try lia.
  { intros i t Hi HL. rewrite (@rd_lt F t _ f0) by lia. cbn [bind]. apply wr_lt. lia. }
  rewrite E0. cbn [bind].
  set (es := crs_entries A).
  set (upto := fun k r j => fold_left (fun t (e : triple) => fadd t (fmul (fmul a (snd e)) (dense_fn B (snd (fst e)) j)))
         (filter (fun t => fst (fst t) =? r) (firstn k es)) (fmul b (dense_fn C r j))).
  destruct (@crs_nest_inv F SF (list F) (fun k v => length v = length (d_val C) /\
     (forall r j, r < M -> j < N -> nth (d_first C + (N * r + j)) v f0 = upto k r j) /\
     (forall q, q < d_first C \/ d_first C + M * N <= q -> nth q v f0 = nth q (d_val C) f0)) A M
     (fun i k v => c <- rd (m_ci A) k ;; p <- rd (m_val A) (m_first A + k) ;;
        entry a p (d_val B) (d_first B + N * c) (d_first C + i * N) N v) v0) as (v & E & HL & H1 & H2); auto; [lia| | |].
  - split; auto. split.
    + intros r j Hr Hj. rewrite N0. pose proof (rc_lt Hr Hj).
      rewrite (proj2 (Nat.leb_le _ _)), (proj2 (Nat.ltb_lt _ _)) by lia. reflexivity.
    + intros q Hq. rewrite N0, Nat.add_0_r. destruct (Nat.leb_spec (d_first C) q); destruct (Nat.ltb_spec q (d_first C + M * N)); cbn [andb]; auto; lia.
  - intros i k v Hi Hk Hkn HE (HL & H1 & H2). rewrite rd_ci, rd_val by auto. cbn [bind].
    pose proof (cin_lt W Hkn) as Hc. rewrite HK in Hc. set (c := cin A k) in *.
    assert (HB : d_first B + N * c + N <= length (d_val B)).
    { rewrite B1. assert (N * c + N <= d_row B * d_col B) by (rewrite HN; fold N; nia). lia. }
    assert (HC : d_first C + i * N + N <= length v).
    { rewrite HL, C1. assert (i * N + N <= M * N) by nia. lia. }
    destruct (Hentry a (vln A k) (d_val B) (d_first B + N * c) (d_first C + i * N) N v HB HC) as (v' & E & HL' & HN').
    exists v'. split; auto. split; [lia|]. split.
    + intros r j Hr Hj. rewrite HN'. unfold upto.
      rewrite (@firstn_S_nth _ _ _ D) by (unfold es; rewrite crs_entries_length; auto).
      fold es in HE. rewrite HE, filter_app, fold_left_app. cbn [filter fst].
      fold (upto k r j).
      destruct (Nat.eqb_spec i r) as [<-|Hne].
      * rewrite (proj2 (Nat.leb_le _ _)), (proj2 (Nat.ltb_lt _ _)) by lia. cbn [andb fold_left fst snd].
        rewrite H1 by auto. unfold dense_fn. rewrite HN. fold N c.
        replace (d_first B + N * c + (d_first C + (N * i + j) - (d_first C + i * N))) with (d_first B + (N * c + j)) by lia.
        reflexivity.
      * cbn [fold_left]. rewrite <- H1 by auto.
        assert (N * r + j < i * N \/ i * N + N <= N * r + j) as [G|G] by nia.
        -- rewrite (proj2 (Nat.leb_gt _ _)) by lia. reflexivity.
        -- destruct (Nat.ltb_spec (d_first C + (N * r + j)) (d_first C + i * N + N)); [lia|]. now rewrite andb_false_r.
    + intros q Hq. rewrite HN'. assert (i * N + N <= M * N) by nia.
      destruct (Nat.leb_spec (d_first C + i * N) q); destruct (Nat.ltb_spec q (d_first C + i * N + N)); cbn [andb]; auto; lia.
  - unfold crs_nest in E. rewrite E. cbn [bind]. exists (d_set_val C v). split; auto.
    split; [unfold dense_ok; dsimpl; repeat split; auto; lia|]. split; auto. split; auto. split.
    + split; auto. dsimpl. fold M N in C2. rewrite C2. auto.
    + intros i j Hi Hj. unfold dense_fn at 1. dsimpl. fold N. rewrite H1 by lia. unfold upto.
      assert (Hr : rpn A M = m_nnz A) by (destruct W as (_ & _ & _ & G & _); rewrite <- HM; exact G). rewrite Hr.
      rewrite firstn_all2 by (unfold es; rewrite crs_entries_length; auto).
      unfold es. rewrite crs_entries_filter by lia. unfold row_sum.
      generalize (fmul b (dense_fn C i j)). generalize (crs_row A i). intros l. induction l as [|p l IH]; intros z; cbn; auto.
Qed.

(** sizes are checked *)
Lemma crs_dense_badsize (a : F) (A : crs F) B b C entry :
  m_col A <> d_row B \/ m_row A <> d_row C \/ d_col B <> d_col C ->
  crs_dense_matmul_scalar a A B b C = Abort /\ crs_dense_matmul_avx entry a A B b C = Abort.
Proof.
  intros H. unfold crs_dense_matmul_scalar, crs_dense_matmul_avx.
  destruct (Nat.eqb_spec (m_col A) (d_row B)); cbn [assert_ bind]; auto.
  destruct (Nat.eqb_spec (m_row A) (d_row C)); cbn [assert_ bind]; auto.
  destruct (Nat.eqb_spec (d_col B) (d_col C)); cbn [assert_ bind]; auto. lia.
Qed.

Section Exact.
Context (Hex : exact SF).
Let Hrt : ring_theory f0 f1 fadd fmul fsub fopp (@eq F) := Hex.
Add Ring Fring3 : Hrt.

Lemma row_sum_mm (A : crs F) (B : dense F) i j : crs_ok A -> i < m_row A ->
  row_sum f0 (fun v => v) (crs_row A i) B j = mm (m_col A) (summed (crs_entries A)) (dense_fn B) i j.
Proof.
  intros W Hi. unfold mm.
  change (sum_n (m_col A) (fun k => fmul (summed (crs_entries A) i k) (dense_fn B k j)))
    with (mv (m_col A) (summed (crs_entries A)) (fun k => dense_fn B k j) i).
  rewrite (mv_summed Hex _ i (crs_in_range W)), wrow_filter, crs_entries_filter, fold_right_map by auto.
  unfold row_sum. rewrite (fold_add_acc Hex (fun p : nat * F => fmul (snd p) (dense_fn B (fst p) j))). cbn [fst snd]. ring.
Qed.

Lemma row_sum_scaled (a z : F) l (B : dense F) j :
  row_sum z (fun v => fmul a v) l B j = fadd (fmul a (row_sum f0 (fun v => v) l B j)) z.
Proof.
  unfold row_sum.
  rewrite (fold_add_acc Hex (fun p : nat * F => fmul (fmul a (snd p)) (dense_fn B (fst p) j))).
  rewrite (fold_add_acc Hex (fun p : nat * F => fmul (snd p) (dense_fn B (fst p) j))).
  assert (IH' : fold_right (fun p t => fadd (fmul (fmul a (snd p)) (dense_fn B (fst p) j)) t) f0 l =
       fmul a (fold_right (fun p t => fadd (fmul (snd p) (dense_fn B (fst p) j)) t) f0 l)).
  { induction l as [|p l IH]; cbn [fold_right]; [ring|]. rewrite IH. ring. }
  rewrite IH'. ring.
Qed.
End Exact.

End CrsMatmul.
