(** * TensorCrsProof4: element-wise operations on tensor_CRS objects *)
From Coq Require Import NArith.
From Verif Require Import Base Scalar Spec SumFacts Loops DenseModel CooModel Observe CooProof CooSortProof CooMiscProof
  CrsModel CrsObserve CrsProof CrsBlasProof CrsSimProof CrsConvProof CrsMatmulProof TensorModel TensorSpec TensorProof
  Mem ReduceModel VecModel DenseBlasModel TensorBlasModel MemSpec TensorBlasProof ReshapeProof TensorCrsModel TensorCrsSpec TensorCrsProof
  TensorCrsProof2 TensorCrsProof3.
Set Implicit Arguments.

Section Elementwise.
Context {F : Type} {SF : Scalar F}.

Lemma tr_same_size_refl (A C : tcrs F) : k_shape A = k_shape C -> tr_same_size A C = true.
Proof. intros H. unfold tr_same_size. destruct (list_eq_dec Nat.eq_dec (k_shape A) (k_shape C)); auto. Qed.
Lemma tr_same_structure_ok (A C : tcrs F) h : k_shape A = k_shape C -> k_hash A = Some h -> k_hash C = Some h ->
  tr_same_structure A C = Ok true.
Proof. intros H H1 H2. unfold tr_same_structure. rewrite tr_same_size_refl, H1, H2 by auto. now rewrite N.eqb_refl. Qed.

(** flat position -> slice and position within the slice *)
Lemma tr_flat_lt (A : tcrs F) d k : tr_readable A -> d < length (k_cis A) -> k < length (nth d (k_cis A) []) -> tr_off A d + k < k_nnz A.
Proof. intros (R1 & R2 & R3 & R4 & R5) Hd Hk. pose proof (tr_off_le A Hd). lia. Qed.


(** writing g of A's values over C's *)
Lemma tr_write_ok (A C : tcrs F) v (g : nat -> F -> F) : tr_readable A -> same_arrays A C ->
  length (k_val C) = k_alloc C -> k_first C + k_nnz A <= k_alloc C -> length v = length (k_val C) ->
  (forall d k, d < length (k_cis A) -> k < length (nth d (k_cis A) []) ->
     nth (k_first C + tr_off A d + k) v f0 = g (nth k (nth d (k_cis A) []) 0) (nth (k_first A + tr_off A d + k) (k_val A) f0)) ->
  tr_readable (k_set_val C v) /\ forall p i, inside (slices (k_shape A)) p -> i < n_rows (k_shape A) ->
    tr_row (k_set_val C v) p i = map (fun e => (fst e, g (fst e) (snd e))) (tr_row A p i).
Proof.
  intros HR (S1 & S2 & S3 & S4) B1 B2 HL HV.
  apply (@tr_ext F SF A (k_set_val C v) g HR); cbn [k_set_val k_shape k_rps k_cis k_nnz k_val k_first k_alloc]; auto.
  - now rewrite S2.
  - intros d Hd. now rewrite S2.
  - lia.
Qed.

Lemma tr_map1_ok g (A C : tcrs F) : tr_readable A -> k_first A + k_nnz A <= length (k_val A) ->
  same_arrays A C -> length (k_val C) = k_alloc C -> k_first C + k_nnz A <= k_alloc C ->
  exists C', tr_map1 g A C = Ok C' /\ tr_readable C' /\ k_shape C' = k_shape A /\
    forall p i, inside (slices (k_shape A)) p -> i < n_rows (k_shape A) ->
      tr_row C' p i = map (fun e => (fst e, g (snd e))) (tr_row A p i).
Proof.
  intros HR HA HS B1 B2. unfold tr_map1.
  destruct (@elem_loop F f0 (fun i _ => g (nth (k_first A + i) (k_val A) f0)) 0 (k_nnz A) (k_first C)
    (fun i v => p <- rd (k_val A) (k_first A + i) ;; wr v (k_first C + i) (g p)) (k_val C)) as (v & E & HL & HN); try lia.
  { intros i t Hi Ht. rewrite (@rd_lt F _ _ f0) by lia. cbn [bind]. rewrite wr_lt by lia. reflexivity. }
  rewrite E. cbn [bind]. eexists; split; [reflexivity|].
  destruct (@tr_write_ok A C v (fun _ x => g x)) as (R & HRow); auto.
  - intros d k Hd Hk. pose proof (tr_flat_lt HR Hd Hk). rewrite HN.
    rewrite (proj2 (Nat.leb_le _ _)), (proj2 (Nat.ltb_lt _ _)) by lia. cbn [andb]. f_equal. f_equal. lia.
  - split; auto. split; auto. now destruct HS.
Qed.

Lemma tr_scal_ok alpha (A : tcrs F) : tr_readable A -> length (k_val A) = k_alloc A -> k_first A + k_nnz A <= k_alloc A ->
  exists A', tr_scal alpha A = Ok A' /\ tr_readable A' /\ k_shape A' = k_shape A /\
    forall p i, inside (slices (k_shape A)) p -> i < n_rows (k_shape A) ->
      tr_row A' p i = map (fun e => (fst e, fmul (snd e) alpha)) (tr_row A p i).
Proof.
  intros HR B1 B2. unfold tr_scal.
  destruct (@elem_loop F f0 (fun i x => fmul x alpha) 0 (k_nnz A) (k_first A)
    (fun i v => p <- rd v (k_first A + i) ;; wr v (k_first A + i) (fmul p alpha)) (k_val A)) as (v & E & HL & HN); try lia.
  { intros i t Hi Ht. rewrite (@rd_lt F _ _ f0) by lia. cbn [bind]. rewrite wr_lt by lia. reflexivity. }
  rewrite E. cbn [bind]. eexists; split; [reflexivity|].
  destruct (@tr_write_ok A A v (fun _ x => fmul x alpha)) as (R & HRow); auto.
  - repeat split.
  - intros d k Hd Hk. pose proof (tr_flat_lt HR Hd Hk). rewrite HN.
    rewrite (proj2 (Nat.leb_le _ _)), (proj2 (Nat.ltb_lt _ _)) by lia. cbn [andb]. f_equal.
Qed.

Lemma tr_fill_ok value (A : tcrs F) : tr_readable A -> length (k_val A) = k_alloc A -> k_first A = 0 -> k_nnz A <= k_alloc A ->
  exists A', tr_fill A value = Ok A' /\ tr_readable A' /\ k_shape A' = k_shape A /\
    forall p i, inside (slices (k_shape A)) p -> i < n_rows (k_shape A) ->
      tr_row A' p i = map (fun e => (fst e, value)) (tr_row A p i).
Proof.
  intros HR B1 B0 B2. unfold tr_fill.
  destruct (@elem_loop F f0 (fun i x => value) 0 (k_nnz A) 0
    (fun i v => wr v i value) (k_val A)) as (v & E & HL & HN); try lia.
  { intros i t Hi Ht. rewrite wr_lt by lia. reflexivity. }
  rewrite E. cbn [bind]. eexists; split; [reflexivity|].
  destruct (@tr_write_ok A A v (fun _ x => value)) as (R & HRow); auto.
  - repeat split.
  - lia.
  - intros d k Hd Hk. pose proof (tr_flat_lt HR Hd Hk). rewrite HN.
    rewrite (proj2 (Nat.leb_le _ _)), (proj2 (Nat.ltb_lt _ _)) by lia. cbn [andb]. reflexivity.
Qed.

(** element-wise combination; stated with the paired rows *)
Lemma tr_row_pairs (A B : tcrs F) p i : same_arrays A B -> map fst (tr_row B p i) = map fst (tr_row A p i).
Proof.
  intros (S1 & S2 & S3 & S4). unfold tr_row, crs_row. rewrite S1, !map_map. cbn [fst].
  unfold tr_slice, rpn, cin. cbn [m_rp m_ci]. rewrite S1, S2, S3. reflexivity.
Qed.

Lemma tr_tensop_ok op (A B C : tcrs F) h : tr_readable A -> k_first A + k_nnz A <= length (k_val A) ->
  same_arrays A B -> k_first B + k_nnz A <= length (k_val B) ->
  same_arrays A C -> length (k_val C) = k_alloc C -> k_first C + k_nnz A <= k_alloc C ->
  k_hash A = Some h -> k_hash B = Some h -> k_hash C = Some h ->
  exists C', tr_tensop op A B C = Ok C' /\ k_shape C' = k_shape A /\ k_rps C' = k_rps A /\ k_cis C' = k_cis A /\
    tr_readable C' /\
    forall p i, inside (slices (k_shape A)) p -> i < n_rows (k_shape A) ->
      tr_row C' p i = map (fun q => (fst (fst q), op (snd (fst q)) (snd (snd q)))) (List.combine (tr_row A p i) (tr_row B p i)).
Proof.
  intros HR HA SB HB SC B1 B2 H1 H2 H3.
  pose proof SB as (SB1 & SB2 & SB3 & SB4). pose proof SC as (SC1 & SC2 & SC3 & SC4).
  unfold tr_tensop. rewrite !tr_same_size_refl by auto. cbn [assert_ andb bind].
  rewrite !(@tr_same_structure_ok A _ h) by auto. cbn [bind assert_].
  destruct (@elem_loop F f0 (fun i _ => op (nth (k_first A + i) (k_val A) f0) (nth (k_first B + i) (k_val B) f0)) 0 (k_nnz A) (k_first C)
    (fun i v => p <- rd (k_val A) (k_first A + i) ;; q <- rd (k_val B) (k_first B + i) ;; wr v (k_first C + i) (op p q)) (k_val C)) as (v & E & HL & HN); try lia.
  { intros i t Hi Ht. rewrite !(@rd_lt F _ _ f0) by lia. cbn [bind]. rewrite wr_lt by lia. reflexivity. }
  rewrite E. cbn [bind]. eexists; split; [reflexivity|].
  cbn [k_set_val k_shape k_rps k_cis]. split; auto. split; auto. split; auto.
  destruct HR as (R1 & R2 & R3 & R4 & R5).
  assert (HR : tr_readable A) by (repeat split; auto).
  assert (Hoff : forall d, tr_off (k_set_val C v) d = tr_off A d) by (intros; unfold tr_off; cbn; now rewrite SC3).
  assert (HoffB : forall d, tr_off B d = tr_off A d) by (intros; unfold tr_off; cbn; now rewrite SB3).
  (* per slice: view the pair of values as a function of the stored position *)
  assert (K : forall d, d < prod (slices (k_shape A)) -> crs_readable (tr_slice (k_set_val C v) d) /\
    forall i, i < n_rows (k_shape A) -> crs_row (tr_slice (k_set_val C v) d) i =
      map (fun q => (fst (fst q), op (snd (fst q)) (snd (snd q)))) (List.combine (crs_row (tr_slice A d) i) (crs_row (tr_slice B d) i))).
  { intros d Hd. destruct (R5 d Hd) as (X & HS & WX).
    pose proof HS as (S1 & S2 & S3 & S4 & S5 & S6 & S7 & S8 & S9).
    set (Y := tr_slice (k_set_val C v) d). set (XB := tr_slice B d).
    assert (EY : m_row Y = n_rows (k_shape A) /\ m_col Y = n_cols (k_shape A) /\ m_rp Y = m_rp (tr_slice A d) /\ m_ci Y = m_ci (tr_slice A d) /\
      m_nnz Y = m_nnz (tr_slice A d) /\ m_first Y = k_first C + tr_off A d /\ m_val Y = v /\ m_alloc Y = k_alloc C).
    { unfold Y, tr_slice. cbn [k_set_val k_shape k_rps k_cis k_val k_first k_alloc m_row m_col m_rp m_ci m_nnz m_first m_val m_alloc].
      rewrite Hoff, SC1, SC2, SC3. repeat split; auto. }
    destruct EY as (Y1 & Y2 & Y3 & Y4 & Y5 & Y6 & Y7 & Y8).
    set (Y' := m_set_rp Y (m_rp X)).
    pose proof WX as (W1 & W2 & W3 & W4 & W5 & W6 & W7 & W8).
    pose proof (@tr_off_le F A d ltac:(lia)) as HO.
    assert (Hlen : m_nnz X = length (nth d (k_cis A) [])) by (rewrite <- S6; reflexivity).
    assert (WY : crs_ok Y').
    { unfold crs_ok, Y', m_set_rp, rpn, cin; msimpl. unfold rpn, cin in *.
      rewrite Y1, Y2, Y4, Y5, Y6, Y7, Y8, S3, S6. cbn [tr_slice m_row m_col m_nnz] in S1, S2, S6. rewrite S1, S2.
      repeat split; auto; try lia. }
    assert (HY : crs_sim Y Y').
    { unfold crs_sim, Y', m_set_rp, rpn; msimpl. rewrite Y1, Y3. unfold rpn in *. cbn [tr_slice m_row] in S1, S7, S9.
      repeat split; auto; try lia; try (rewrite W1; lia). }
    split; [exists Y'; auto|]. intros i Hi.
    rewrite (crs_sim_row HY) by lia.
    assert (EB : crs_row XB i = map (fun k => (cin (tr_slice A d) k, nth (k_first B + tr_off A d + k) (k_val B) f0)) (seq (rpn (tr_slice A d) i) (rpn (tr_slice A d) (i + 1) - rpn (tr_slice A d) i))).
    { unfold XB, crs_row, tr_slice, rpn, cin, vln. cbn [m_rp m_ci m_first m_val]. rewrite SB1, SB2, SB3, HoffB. reflexivity. }
    rewrite EB.
    assert (ER : seq (rpn (tr_slice A d) i) (rpn (tr_slice A d) (i + 1) - rpn (tr_slice A d) i) = seq (rpn X i) (rpn X (i + 1) - rpn X i)).
    { destruct (S9 i Hi) as [[-> ->]|[G1 G2]]; auto.
      replace (rpn (tr_slice A d) (i + 1) - rpn (tr_slice A d) i) with 0 by lia. replace (rpn X (i + 1) - rpn X i) with 0 by lia. reflexivity. }
    unfold crs_row. rewrite ER.
    change (rpn Y' i) with (rpn X i). change (rpn Y' (i + 1)) with (rpn X (i + 1)).
    assert (G : forall k, In k (seq (rpn X i) (rpn X (i + 1) - rpn X i)) ->
       cin Y' k = cin (tr_slice A d) k /\ vln Y' k = op (vln (tr_slice A d) k) (nth (k_first B + tr_off A d + k) (k_val B) f0)).
    { intros k Hk. apply in_seq in Hk.
      assert (Hk' : k < length (nth d (k_cis A) [])).
      { assert (rpn X (i + 1) <= m_nnz X); [apply rp_le_nnz; auto; cbn [tr_slice m_row] in S1; lia|]. lia. }
      split; [unfold cin; change (m_ci Y') with (m_ci Y); now rewrite Y4|].
      unfold vln. change (m_first Y') with (m_first Y). change (m_val Y') with (m_val Y). rewrite Y6, Y7, HN.
      rewrite (proj2 (Nat.leb_le _ _)), (proj2 (Nat.ltb_lt _ _)) by lia. cbn [andb tr_slice m_first m_val]. f_equal; f_equal; lia. }
    revert G. generalize (seq (rpn X i) (rpn X (i + 1) - rpn X i)). intros l. induction l as [|k l IH]; intros G; auto.
    cbn [map List.combine fst snd]. destruct (G k) as [G1 G2]; [now left|]. rewrite G1, G2. f_equal. apply IH. intros; apply G; now right. }
  split.
  - unfold tr_readable. rewrite Hoff. cbn [k_set_val k_shape k_rps k_cis k_nnz]. rewrite SC1, SC2, SC3, SC4.
    repeat split; auto. intros d Hd. now apply K.
  - intros p i Hp Hi. unfold tr_row. cbn [k_set_val k_shape]. rewrite SC1, SB1. apply K; auto. now apply row_major_lt.
Qed.

(** ** times_row *)
Lemma tr_times_row_ok (A C : tcrs F) (x : list F) h : tr_readable A ->
  (forall d i, d < length (k_rps A) -> n_rows (k_shape A) < i -> nth i (nth d (k_rps A) []) 0 = 0) ->
  same_arrays A C -> length (k_val C) = k_alloc C -> k_first C + k_nnz A <= k_alloc C ->
  k_hash A = Some h -> k_hash C = Some h -> length x = n_cols (k_shape A) ->
  exists C', tr_times_row A x C = Ok C' /\ tr_readable C' /\ k_shape C' = k_shape A /\
    forall p i, inside (slices (k_shape A)) p -> i < n_rows (k_shape A) ->
      tr_row C' p i = map (fun e => (fst e, fmul (snd e) (fn x (fst e)))) (tr_row A p i).
Proof.
  intros HR HT HS B1 B2 H1 H2 Hx. pose proof HR as (R1 & R2 & R3 & R4 & R5). pose proof HS as (S1 & S2 & S3 & S4).
  unfold tr_times_row. rewrite (@tr_same_structure_ok A C h) by auto. cbn [bind assert_].
  rewrite (@rd_lt nat _ _ 0) by lia. cbn [bind]. fold (n_cols (k_shape A)). rewrite Hx, Nat.eqb_refl. cbn [assert_ bind].
  set (want := fun d k => fmul (nth (k_first A + tr_off A d + k) (k_val A) f0) (fn x (nth k (nth d (k_cis A) []) 0))).
  match goal with |- context[for_ 0 _ ?b (k_val C, 0)] => set (body := b) end.
  destruct (@for0_inv _ (fun d st => snd st = tr_off A d /\ length (fst st) = length (k_val C) /\
    (forall d' k, d' < d -> k < length (nth d' (k_cis A) []) -> nth (k_first C + tr_off A d' + k) (fst st) f0 = want d' k))
    (length (k_rps A)) body (k_val C, 0)) as ([v ns] & E & I1 & I2 & I3).
  - cbn [fst snd]. repeat split; auto. intros; lia.
  - intros d [v ns] Hd (I1 & I2 & I3). cbn [fst snd] in *. subst ns. unfold body.
    rewrite (@rd_lt _ (k_rps A) d []), (@rd_lt _ (k_cis A) d []) by lia. cbn [bind].
    destruct (R5 d) as (X & HSim & WX); [lia|].
    pose proof HSim as (G1 & G2 & G3 & G4 & G5 & G6 & G7 & G8 & G9).
    pose proof WX as (W1 & W2 & W3 & W4 & W5 & W6 & W7 & W8).
    cbn [tr_slice m_row m_col m_rp m_ci m_val m_first m_nnz] in G1, G2, G3, G4, G5, G6, G7.
    set (rp := nth d (k_rps A) []) in *. set (ci := nth d (k_cis A) []) in *.
    rewrite firstn_length in G7.
    pose proof (@tr_off_le F A d ltac:(lia)) as HO. fold ci in HO.
    set (inner := fun (j : nat) (v : list F) => p <- rd (k_val A) (k_first A + (j + tr_off A d)) ;; c <- rd ci j ;; xc <- rd x c ;;
               wr v (k_first C + (j + tr_off A d)) (fmul p xc)).
    destruct (@crs_nest_upd F SF X (m_row X) (k_first C + tr_off A d) (fun i k _ => want d k) (fun _ => inner) v) as (w & E & HL & N1 & N2); auto.
    { lia. }
    { intros i k u Hi Hk Hkn Hu. unfold inner.
      rewrite (@rd_lt F (k_val A) _ f0) by (rewrite G4; lia). cbn [bind].
      rewrite (@rd_lt nat ci _ 0) by lia. cbn [bind].
      assert (Hc : nth k ci 0 < length x).
      { rewrite Hx. rewrite G2. change (nth k ci 0) with (nth k ci 0). rewrite G3. apply W6. auto. }
      rewrite (@rd_lt F x _ f0) by auto. cbn [bind].
      replace (k_first C + (k + tr_off A d)) with (k_first C + tr_off A d + k) by lia.
      replace (k_first A + (k + tr_off A d)) with (k_first A + tr_off A d + k) by lia.
      destruct (@wr_upd_fact F SF u (k_first C + tr_off A d) k (want d k)) as (u' & EU & LU & NU); [lia|].
      exists u'. split; [exact EU|]. split; [lia|]. exact NU. }
    assert (EL : for_ 0 (length rp - 1) (fun i v => lo <- rd rp i ;; hi <- rd rp (i + 1) ;; for_ lo hi inner v) v = Ok w).
    { rewrite (@for_split _ 0 (m_row X) (length rp - 1)) by lia. unfold crs_nest in E.
      rewrite (@for_ext _ 0 (m_row X) _ (fun i s => lo <- rd (m_rp X) i ;; hi <- rd (m_rp X) (i + 1) ;; for_ lo hi inner s)).
      - rewrite E. cbn [bind].
        rewrite (@for_pure _ (m_row X) (length rp - 1) (fun _ u => u)).
        + f_equal. generalize (seq (m_row X) (length rp - 1 - m_row X)). clear. intros l. induction l; auto.
        + intros i u Hi. rewrite !(@rd_lt nat rp _ 0) by lia. cbn [bind].
          unfold rp. rewrite (HT d (i + 1)) by lia. now rewrite for_empty by lia.
      - intros i u Hi. rewrite !(@rd_lt nat rp _ 0) by lia. rewrite !(@rd_lt nat (m_rp X) _ 0) by lia. cbn [bind].
        pose proof (@crs_sim_loop F _ (tr_slice A d) X i inner u HSim) as K.
        cbn [tr_slice m_row] in K. unfold rpn in K. cbn [m_rp tr_slice] in K. fold rp in K.
        rewrite !nth_firstn in K by lia. apply K. lia. }
    fold inner. rewrite EL. cbn [bind].
    eexists; split; [reflexivity|]. cbn [fst snd]. split; [now rewrite tr_off_S by lia|]. split; [lia|].
    intros d' k Hd' Hk. destruct (Nat.eq_dec d' d) as [->|].
    + assert (HkX : k < m_nnz X) by (fold ci in Hk; lia).
      destruct (crs_entries_ex WX HkX) as (i & Hi & Hri & _). now apply (N1 i).
    + rewrite N2. { apply I3; auto. lia. }
      left. assert (HL' : d' < length (k_cis A)) by lia.
      assert (tr_off A d' + length (nth d' (k_cis A) []) <= tr_off A d); [|lia].
      rewrite <- tr_off_S by auto. unfold tr_off.
      assert (Hle : S d' <= d) by lia. clear -Hle.
      replace (firstn (S d') (k_cis A)) with (firstn (S d') (firstn d (k_cis A))) by (rewrite firstn_firstn; f_equal; lia).
      rewrite <- (firstn_skipn (S d') (firstn d (k_cis A))) at 2. rewrite map_app, list_sum_app. lia.
  - cbn [fst snd] in *. rewrite E. cbn [bind]. eexists; split; [reflexivity|].
    destruct (@tr_write_ok A C v (fun j y => fmul y (fn x j))) as (R & HRow); auto.
    intros d k Hd Hk. rewrite I3 by lia. reflexivity.
Qed.
End Elementwise.
