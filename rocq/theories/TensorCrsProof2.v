(** * TensorCrsProof2: products with a tensor_CRS *)
From Coq Require Import NArith.
From Verif Require Import Base Scalar Spec SumFacts Loops DenseModel CooModel Observe CooProof CooSortProof CooMiscProof
  CrsModel CrsObserve CrsProof CrsBlasProof CrsSimProof CrsConvProof CrsMatmulProof TensorModel TensorSpec TensorProof
  Mem ReduceModel VecModel DenseBlasModel TensorBlasModel MemSpec TensorBlasProof ReshapeProof TensorCrsModel TensorCrsSpec TensorCrsProof.
Set Implicit Arguments.

Section Products.
Context {F : Type} {SF : Scalar F} {SC : Schedule}.

(** ** the matrix of a slice *)
Lemma crs_of_arrays_eq M N n rp ci (v : list F) : M + 1 <= length rp -> length ci = n -> length v = n ->
  crs_of_arrays M N n rp ci v = Ok (crs_compute_hash (mkCrs M N (firstn (M + 1) rp) ci v 0 n n true 0%N)).
Proof.
  intros H1 H2 H3. unfold crs_of_arrays, crs_resize. msimpl. cbn [Nat.add Nat.min].
  destruct (Nat.ltb_spec n 0); [lia|]. rewrite for_empty by lia. cbn [bind].
  rewrite fill_loop0 by (rewrite ?repeat_length; lia). cbn [bind]. msimpl. unfold vcopyA.
  rewrite !(@copy_loop0 nat 0) by (rewrite ?repeat_length; lia). cbn [bind].
  rewrite (@copy_loop0 F f0) by (rewrite ?app_length, ?firstn_length, ?repeat_length, ?skipn_length, ?repeat_length; lia). cbn [bind].
  assert (E1 : firstn (M + 1) rp ++ skipn (M + 1) (repeat 0 (M + 1)) = firstn (M + 1) rp)
    by (rewrite skipn_all2 by (rewrite repeat_length; lia); apply app_nil_r).
  assert (E2 : firstn n ci ++ skipn n (repeat 0 n) = ci)
    by (rewrite skipn_all2 by (rewrite repeat_length; lia); rewrite app_nil_r, <- H2; apply firstn_all).
  rewrite E1, E2. rewrite (@skipn_all2 F n).
  2: { rewrite ?app_length, ?firstn_length, ?repeat_length, ?skipn_length, ?repeat_length. lia. }
  rewrite app_nil_r. rewrite <- H3 at 1. rewrite firstn_all. reflexivity.
Qed.

Lemma slice_matrix_ok (A : tcrs F) d : tr_readable A -> d < prod (slices (k_shape A)) ->
  exists m, slice_matrix A (n_rows (k_shape A)) (n_cols (k_shape A)) d (tr_off A d) = Ok m /\ crs_readable m /\
    m_row m = n_rows (k_shape A) /\ m_col m = n_cols (k_shape A) /\
    forall i, i < n_rows (k_shape A) -> crs_row m i = crs_row (tr_slice A d) i.
Proof.
  intros (R1 & R2 & R3 & R4 & R5) Hd. destruct (R5 d Hd) as (B & Hs & WB).
  pose proof Hs as (S1 & S2 & S3 & S4 & S5 & S6 & S7 & S8 & S9).
  pose proof WB as (_ & _ & _ & _ & W5 & _ & W7 & W8).
  unfold slice_matrix. rewrite (@rd_lt _ (k_rps A) d []) by lia. cbn [bind].
  rewrite (@rd_lt _ (k_cis A) d []) by lia. cbn [bind].
  unfold tr_slice in S1, S2, S3, S4, S5, S6, S7, S8; cbn [m_row m_col m_rp m_ci m_val m_first m_nnz m_alloc] in *.
  set (ci := nth d (k_cis A) []) in *. set (rp := nth d (k_rps A) []) in *. 
  pose proof S7 as S7'. rewrite firstn_length in S7.
  rewrite crs_of_arrays_eq by (rewrite ?repeat_length; auto; lia). cbn [bind]. msimpl.
  destruct (@copy_loop F f0 (length ci) 0 (k_first A + tr_off A d) (k_val A) (repeat f0 (length ci))) as (v & E & HL & HN).
  { rewrite repeat_length. lia. } { rewrite S4, S5, S6. lia. }
  rewrite (@for_ext _ 0 (length ci) _ (fun i v => x <- rd (k_val A) (k_first A + tr_off A d + i) ;; wr v (0 + i) x)).
  2: { intros. now rewrite Nat.add_assoc. }
  rewrite E. cbn [bind]. rewrite repeat_length in HL.
  eexists; split; [reflexivity|]. msimpl.
  match goal with |- crs_readable ?x /\ _ => set (m := x) end.
  set (m' := m_set_rp m (m_rp B)).
  destruct (@crs_ext_ok F SF B m' WB) as [Wm' HEm]; unfold m', m_set_rp, m; msimpl; auto; try lia.
  - rewrite <- S6. intros k Hk. split; [unfold cin; msimpl; now rewrite S3|].
    unfold vln; msimpl. rewrite HN. cbn [Nat.leb andb Nat.add]. destruct (Nat.ltb_spec k (length ci)); [|lia].
    rewrite <- S4, <- S5. f_equal. lia.
  - assert (Hsm : crs_sim m m').
    { unfold crs_sim, m', m_set_rp, m; msimpl. repeat split; auto; try lia. }
    split; [exists m'; split; auto|]. split; auto. split; auto.
    intros i Hi. rewrite (crs_sim_row Hsm) by auto. rewrite (crs_sim_row Hs) by auto.
    rewrite (@rows_of_entries F SF m' (crs_entries B)) by (auto; unfold m', m_set_rp, m; msimpl; auto).
    rewrite (@rows_of_entries F SF B (crs_entries B)); auto. lia.
Qed.

(** ** writing back slice by slice *)
Definition splice (v : list F) (o : nat) (w : list F) : list F := firstn o v ++ w ++ skipn (o + length w) v.

Lemma splice_length v o w : o + length w <= length v -> length (splice v o w) = length v.
Proof. intros H. unfold splice. rewrite !app_length, firstn_length, skipn_length. lia. Qed.
Lemma splice_nth v o w k : o + length w <= length v ->
  nth k (splice v o w) f0 = if (o <=? k) && (k <? o + length w) then nth (k - o) w f0 else nth k v f0.
Proof.
  intros H. unfold splice.
  destruct (Nat.leb_spec o k); cbn [andb].
  - rewrite app_nth2 by (rewrite firstn_length; lia). rewrite firstn_length, Nat.min_l by lia.
    destruct (Nat.ltb_spec k (o + length w)).
    + now rewrite app_nth1 by lia.
    + rewrite app_nth2 by lia. rewrite nth_skipn. f_equal. lia.
  - rewrite app_nth1 by (rewrite firstn_length; lia). now rewrite nth_firstn.
Qed.

Lemma chunk_out_eq (C : tdense F) v off n : t_first C + off + n <= length v ->
  chunk_out C v off n = Ok (firstn n (skipn (t_first C + off) v)).
Proof.
  intros H. unfold chunk_out.
  destruct (@copy_loop F f0 n 0 (t_first C + off) v (repeat f0 n)) as (w & E & HL & HN).
  { rewrite repeat_length. lia. } { lia. }
  rewrite (@for_ext _ 0 n _ (fun i w => x <- rd v (t_first C + off + i) ;; wr w (0 + i) x)).
  2: { intros. now rewrite Nat.add_assoc. }
  rewrite E. f_equal. rewrite repeat_length in HL.
  apply list_ext with (d := f0); [rewrite firstn_length, skipn_length; lia|].
  intros i Hi. rewrite HN. cbn [Nat.leb andb Nat.add]. destruct (Nat.ltb_spec i n); [|lia].
  rewrite nth_firstn, nth_skipn by lia. f_equal. lia.
Qed.
Lemma chunk_in_eq (C : tdense F) v off n w : length w = n -> t_first C + off + n <= length v ->
  chunk_in C v off n w = Ok (splice v (t_first C + off) w).
Proof.
  intros HW H. unfold chunk_in.
  destruct (@copy_loop F f0 n (t_first C + off) 0 w v) as (v' & E & HL & HN); try lia.
  rewrite (@for_ext _ 0 n _ (fun i v => x <- rd w (0 + i) ;; wr v (t_first C + off + i) x)).
  2: { intros. now rewrite Nat.add_assoc. }
  rewrite E. f_equal.
  apply list_ext with (d := f0); [rewrite splice_length; lia|].
  intros i Hi. rewrite HN, splice_nth by lia. rewrite HW. cbn [Nat.add]. reflexivity.
Qed.

Lemma chunk_loop U n off (offs : nat -> nat) (G : nat -> list F -> list F) body v0 :
  off + U * n <= length v0 ->
  (forall d w, length w = n -> length (G d w) = n) ->
  (forall d v, d < U -> length v = length v0 ->
     body d (v, offs d) = Ok (splice v (off + d * n) (G d (firstn n (skipn (off + d * n) v))), offs (S d))) ->
  exists v, for_ 0 U body (v0, offs 0) = Ok (v, offs U) /\ length v = length v0 /\
    (forall d i, d < U -> i < n -> nth (off + d * n + i) v f0 = nth i (G d (firstn n (skipn (off + d * n) v0))) f0) /\
    (forall k, k < off \/ off + U * n <= k -> nth k v f0 = nth k v0 f0).
Proof.
  intros HL HG HB.
  destruct (@for0_inv (list F * nat) (fun d st => snd st = offs d /\ length (fst st) = length v0 /\
    (forall d' i, d' < d -> i < n -> nth (off + d' * n + i) (fst st) f0 =
       nth i (G d' (firstn n (skipn (off + d' * n) v0))) f0) /\
    (forall k, k < off \/ off + d * n <= k -> nth k (fst st) f0 = nth k v0 f0)) U body (v0, offs 0)) as ([v z] & E & I1 & I2 & I3 & I4).
  - cbn. repeat split; auto. intros; lia.
  - intros d [v z] Hd (I1 & I2 & I3 & I4). cbn [fst snd] in *. subst z. rewrite HB by auto.
    eexists; split; [reflexivity|]. cbn [fst snd].
    assert (Hdn : d * n + n <= U * n) by (replace (d * n + n) with (S d * n) by lia; apply Nat.mul_le_mono_r; lia).
    assert (Hch : firstn n (skipn (off + d * n) v) = firstn n (skipn (off + d * n) v0)).
    { apply list_ext with (d := f0); [rewrite !firstn_length, !skipn_length; lia|].
      intros i Hi. rewrite firstn_length, skipn_length in Hi. rewrite !nth_firstn, !nth_skipn by lia. apply I4. lia. }
    rewrite Hch. assert (Hgl : length (G d (firstn n (skipn (off + d * n) v0))) = n).
    { apply HG. rewrite firstn_length, skipn_length. lia. }
    split; auto. split; [rewrite splice_length; lia|]. split.
    + intros d' i Hd' Hi. rewrite splice_nth by lia. rewrite Hgl.
      destruct (Nat.eq_dec d' d) as [->|Hne].
      * destruct (Nat.leb_spec (off + d * n) (off + d * n + i)); [|lia].
        destruct (Nat.ltb_spec (off + d * n + i) (off + d * n + n)); [|lia]. cbn [andb]. f_equal. lia.
      * assert (S d' * n <= d * n) by (apply Nat.mul_le_mono_r; lia).
        destruct (Nat.leb_spec (off + d * n) (off + d' * n + i)); [lia|]. cbn [andb]. apply I3; lia.
    + intros k Hk. rewrite splice_nth by lia. rewrite Hgl.
      destruct (Nat.leb_spec (off + d * n) k); cbn [andb]; [|apply I4; lia].
      destruct (Nat.ltb_spec k (off + d * n + n)); [lia|]. apply I4. lia.
  - cbn [fst snd] in *. subst z. exists v. auto.
Qed.

Lemma tr_off_S (A : tcrs F) d : d < length (k_cis A) -> tr_off A (S d) = tr_off A d + length (nth d (k_cis A) []).
Proof.
  intros H. unfold tr_off. rewrite (@firstn_S_nth _ _ _ []) by auto. rewrite map_app, list_sum_app. cbn. lia.
Qed.

Lemma shape_form s : 2 <= length s -> s = slices s ++ [n_rows s; n_cols s].
Proof.
  intros Hr. unfold slices, n_rows, n_cols. rewrite <- (firstn_skipn (length s - 2) s) at 1. f_equal.
  apply list_ext with (d := 0); [rewrite skipn_length; cbn; lia|].
  intros i Hi. rewrite skipn_length in Hi. rewrite nth_skipn.
  destruct i as [|[|i]]; cbn [nth]; [f_equal; lia|f_equal; lia|lia].
Qed.

Lemma last_two_eq s : 2 <= length s -> last_two s = Ok (n_rows s, n_cols s).
Proof.
  intros H. unfold last_two. destruct (Nat.ltb_spec (length s) 2); [lia|].
  rewrite !(@rd_lt nat _ _ 0) by lia. reflexivity.
Qed.


(** ** tensvec *)
Theorem tr_tensvec_ok (a b : F) (A : tcrs F) (x : list F) (C : tdense F) :
  tr_readable A -> td_ok C -> k_shape A = t_shape C ++ [length x] ->
  exists C', tr_tensvec_ab a A x b C = Ok C' /\ td_ok C' /\ t_shape C' = t_shape C /\ tsame_outside C C' /\
    forall p i, inside (slices (k_shape A)) p -> i < n_rows (k_shape A) ->
      td_at C' (p ++ [i]) = Ok (row_dot (tr_row A p i) x).
Proof.
  intros HR HC HS. pose proof HR as (R1 & R2 & R3 & R4 & R5). pose proof HC as (C1 & C2 & C3).
  set (sh := k_shape A) in *. set (U := prod (slices sh)) in *. set (row := n_rows sh) in *. set (col := n_cols sh) in *.
  pose proof (shape_form sh R1) as Hform. fold row col in Hform.
  assert (HCs : t_shape C = slices sh ++ [row] /\ length x = col).
  { rewrite Hform in HS. change [row; col] with ([row] ++ [col]) in HS. rewrite app_assoc in HS.
    apply app_inj_tail in HS. destruct HS. auto. }
  destruct HCs as [HCs Hx].
  assert (Hnnz : t_nnz C = U * row) by (rewrite C2, HCs, prod_app; cbn [prod]; unfold U; lia).
  unfold tr_tensvec_ab. fold sh. rewrite last_two_eq by auto. cbn [bind]. fold row col.
  rewrite Hx, Nat.eqb_refl. cbn [assert_ bind].
  destruct (list_eq_dec Nat.eq_dec sh (t_shape C ++ [col])) as [_|n]; [|congruence]. cbn [assert_ bind].
  rewrite R2. fold U.
  destruct (@chunk_loop U row (t_first C) (tr_off A)
    (fun d _ => map (fun i => row_dot (crs_row (tr_slice A d) i) x) (seq 0 row))
    (fun d st => let '(v, nsum) := st in
      m <- slice_matrix A row col d nsum ;;
      cv <- chunk_out C v (d * row) row ;;
      cv <- crs_matvec_ab a m x b cv ;;
      ci <- rd (k_cis A) d ;;
      v <- chunk_in C v (d * row) row cv ;;
      Ok (v, nsum + length ci)) (t_val C)) as (v & E & HL & HN & HO).
  - lia.
  - intros. now rewrite map_length, seq_length.
  - intros d v Hd Hv.
    assert (Hdn : d * row + row <= U * row) by (replace (d * row + row) with (S d * row) by lia; apply Nat.mul_le_mono_r; lia).
    destruct (slice_matrix_ok HR Hd) as (m & Em & Wm & Mr & Mc & Mrow). fold sh row col in Em, Mr, Mc, Mrow.
    rewrite Em. cbn [bind]. rewrite chunk_out_eq by lia. cbn [bind].
    unfold crs_matvec_ab. destruct Wm as (m' & Hsm & Wm'). rewrite (crs_sim_matvec _ _ _ _ _ Hsm).
    pose proof Hsm as (G1 & G2 & _). rewrite crs_matvec_ok; auto; try lia.
    2: { rewrite firstn_length, skipn_length. lia. }
    cbn [bind]. rewrite (@rd_lt _ (k_cis A) d []) by lia. cbn [bind].
    rewrite chunk_in_eq by (rewrite ?map_length, ?seq_length; lia). cbn [bind].
    rewrite tr_off_S by lia. f_equal. f_equal. rewrite <- G1, Mr. f_equal.
    apply map_ext_in. intros i Hi. apply in_seq in Hi.
    rewrite <- (crs_sim_row Hsm) by lia. now rewrite Mrow by lia.
  - change (tr_off A 0) with 0 in E. rewrite E. cbn [bind]. eexists; split; [reflexivity|].
    split; [unfold td_ok; cbn; repeat split; auto; lia|]. split; [auto|].
    split. { split; auto. cbn [t_val t_set_val]. intros k Hk. apply HO. lia. }
    intros p i Hp Hi. rewrite td_at_ok; [|unfold td_ok; cbn; repeat split; auto; lia|cbn [t_shape t_set_val]; rewrite HCs; apply inside_app; auto; repeat constructor; auto].
    f_equal. unfold tel. cbn [t_shape t_val t_first t_set_val]. rewrite HCs, row_major_app by (auto; now apply inside_length).
    assert (Hr : row_major [row] [i] = i) by (cbn; lia). rewrite Hr. cbn [prod]. rewrite Nat.mul_1_r, Nat.add_assoc.
    rewrite HN by (auto; now apply row_major_lt). rewrite nth_map_seq by auto. reflexivity.
Qed.

(** ** CRS * Dense, any compiled variant *)
Definition mul_computes (mul : matmul_variant (F := F)) (g : F -> F -> F -> list (nat * F) -> (nat -> F) -> F) : Prop :=
  forall a A B b C, crs_readable A -> dense_ok B -> dense_ok C ->
    m_col A = d_row B -> m_row A = d_row C -> d_col B = d_col C ->
    exists C', mul a A B b C = Ok C' /\ dense_ok C' /\ d_row C' = d_row C /\ d_col C' = d_col C /\ d_first C' = d_first C /\
      length (d_val C') = length (d_val C) /\
      forall i j, i < m_row A -> j < d_col B ->
        dense_fn C' i j = g a b (dense_fn C i j) (crs_row A i) (fun k => dense_fn B k j).


Lemma scalar_computes : mul_computes crs_dense_matmul_scalar g_scalar.
Proof.
  intros a A B b C (A' & Hs & W) HB HC H1 H2 H3. rewrite (crs_sim_dense_scalar _ _ _ _ Hs).
  pose proof Hs as (G1 & G2 & _).
  destruct (@crs_dense_scalar_ok F SF a A' B b C W HB HC) as (C' & E & WC & R1 & R2 & [R3 R3'] & R4); try lia.
  exists C'. repeat split; auto; try apply WC.
  - unfold crs_dense_matmul_scalar in E. destruct (m_col A' =? d_row B); [|discriminate]. cbn [assert_ bind] in E.
    destruct (m_row A' =? d_row C); [|discriminate]. cbn [assert_ bind] in E.
    destruct (d_col B =? d_col C); [|discriminate]. cbn [assert_ bind] in E.
    destruct (for_ _ _ _ _); try discriminate. cbn [bind] in E. injection E as <-. reflexivity.
  - intros i j Hi Hj. rewrite R4 by lia. rewrite (crs_sim_row Hs) by auto. reflexivity.
Qed.

Lemma avx_computes entry : entry_spec entry -> mul_computes (crs_dense_matmul_avx entry) g_avx.
Proof.
  intros He a A B b C (A' & Hs & W) HB HC H1 H2 H3. rewrite (crs_sim_dense_avx _ _ _ _ _ Hs).
  pose proof Hs as (G1 & G2 & _).
  destruct (@crs_dense_avx_ok F SF entry a A' B b C He W HB HC) as (C' & E & WC & R1 & R2 & [R3 R3'] & R4); try lia.
  exists C'. repeat split; auto; try apply WC.
  - unfold crs_dense_matmul_avx in E. destruct (m_col A' =? d_row B); [|discriminate]. cbn [assert_ bind] in E.
    destruct (m_row A' =? d_row C); [|discriminate]. cbn [assert_ bind] in E.
    destruct (d_col B =? d_col C); [|discriminate]. cbn [assert_ bind] in E.
    destruct (for_ _ _ _ _); try discriminate. cbn [bind] in E.
    destruct (for_ _ _ _ _); try discriminate. cbn [bind] in E. injection E as <-. reflexivity.
  - intros i j Hi Hj. rewrite R4 by lia. rewrite (crs_sim_row Hs) by auto. reflexivity.
Qed.


(** one slice of tensmat / tensmul *)
Definition gslice (g : F -> F -> F -> list (nat * F) -> (nat -> F) -> F) a b (A : tcrs F) (B : dense F) row n d (w : list F) : list F :=
  map (fun q => g a b (nth q w f0) (crs_row (tr_slice A d) (q / n)) (fun k => dense_fn B k (q mod n))) (seq 0 (row * n)).

Lemma mul_step mul g a b (A : tcrs F) d m (B : dense F) n w own : mul_computes mul g ->
  crs_readable m -> m_row m = n_rows (k_shape A) -> m_col m = n_cols (k_shape A) ->
  (forall i, i < n_rows (k_shape A) -> crs_row m i = crs_row (tr_slice A d) i) ->
  dense_ok B -> d_row B = n_cols (k_shape A) -> d_col B = n -> length w = n_rows (k_shape A) * n ->
  exists C', mul a m B b (mkDense (n_rows (k_shape A)) n w 0 (n_rows (k_shape A) * n) (n_rows (k_shape A) * n) own) = Ok C' /\
    d_val C' = gslice g a b A B (n_rows (k_shape A)) n d w.
Proof.
  set (row := n_rows (k_shape A)). intros Hmul Wm Mr Mc Mrow WB Br Bc Lw.
  destruct (Hmul a m B b (mkDense row n w 0 (row * n) (row * n) own)) as (C' & E & WC & H1 & H2 & H3 & H4 & H5); auto; try lia.
  { repeat split; cbn; auto; lia. }
  exists C'. split; auto. cbn [d_row d_col d_first d_val] in *.
  apply list_ext with (d := f0); [unfold gslice; rewrite map_length, seq_length; lia|].
  intros q Hq. rewrite H4, Lw in Hq. unfold gslice. rewrite nth_map_seq by auto. cbn [Nat.add].
  assert (Hn : n <> 0) by (intros ->; lia).
  assert (Hi : q / n < row) by (apply Nat.div_lt_upper_bound; auto; lia).
  assert (Hj : q mod n < n) by (apply Nat.mod_upper_bound; auto).
  specialize (H5 (q / n) (q mod n)). rewrite Mr, Bc in H5. fold row in H5. specialize (H5 Hi Hj).
  rewrite Mrow in H5 by auto. unfold dense_fn at 1 2 in H5. cbn [d_col d_first d_val] in H5. rewrite H2, H3 in H5. cbn [Nat.add] in H5.
  rewrite <- (Nat.div_mod q n) in H5 by auto. exact H5.
Qed.

Lemma gslice_length g a b A B row n d w : length (gslice g a b A B row n d w) = row * n.
Proof. unfold gslice. now rewrite map_length, seq_length. Qed.

(** ** tensmat *)
Theorem tr_tensmat_ok mul g (a b : F) (A : tcrs F) (B : dense F) (C : tdense F) : mul_computes mul g ->
  tr_readable A -> dense_ok B -> td_ok C -> n_cols (k_shape A) = d_row B ->
  t_shape C = slices (k_shape A) ++ [n_rows (k_shape A); d_col B] ->
  exists C', tr_tensmat_ab mul a A B b C = Ok C' /\ td_ok C' /\ t_shape C' = t_shape C /\ tsame_outside C C' /\
    forall p i j old, inside (slices (k_shape A)) p -> i < n_rows (k_shape A) -> j < d_col B ->
      td_at C (p ++ [i; j]) = Ok old ->
      td_at C' (p ++ [i; j]) = Ok (g a b old (tr_row A p i) (fun k => dense_fn B k j)).
Proof.
  intros Hmul HR HB HC HK HCs. pose proof HR as (R1 & R2 & R3 & R4 & R5). pose proof HC as (C1 & C2 & C3).
  set (sh := k_shape A) in *. set (U := prod (slices sh)) in *. set (row := n_rows sh) in *. set (col := n_cols sh) in *.
  set (n := d_col B) in *.
  pose proof (shape_form sh R1) as Hform. fold row col in Hform.
  assert (Hnnz : t_nnz C = U * (row * n)) by (rewrite C2, HCs, prod_app; cbn [prod]; unfold U; lia).
  unfold tr_tensmat_ab. fold sh. rewrite last_two_eq by auto. cbn [bind]. fold row col.
  rewrite HK, Nat.eqb_refl. cbn [assert_ bind].
  assert (Llen : length (slices sh) = length sh - 2) by (unfold slices; rewrite firstn_length; lia).
  assert (LC : length (t_shape C) = length sh) by (rewrite HCs, app_length, Llen; cbn; lia).
  rewrite (@rd_lt _ (t_shape C) _ 0) by lia. cbn [bind].
  assert (Hlast : nth (length (t_shape C) - 1) (t_shape C) 0 = n).
  { rewrite LC, HCs. rewrite app_nth2 by lia. rewrite Llen. replace (length sh - 1 - (length sh - 2)) with 1 by lia. reflexivity. }
  rewrite Hlast. fold n. rewrite Nat.eqb_refl. cbn [assert_ bind]. rewrite LC, Nat.eqb_refl. cbn [assert_ bind].
  assert (Hfn : firstn (length sh - 1) sh ++ [n] = t_shape C).
  { rewrite HCs. rewrite Hform at 1 2. rewrite app_length, Llen. cbn [length].
    replace (length sh - 2 + 2 - 1) with (length (slices sh) + 1) by lia. rewrite firstn_app_2. cbn [firstn].
    rewrite <- app_assoc. reflexivity. }
  destruct (list_eq_dec Nat.eq_dec (firstn (length sh - 1) sh ++ [n]) (t_shape C)) as [_|e]; [|congruence]. cbn [assert_ bind].
  rewrite R2. fold U.
  destruct (@chunk_loop U (row * n) (t_first C) (tr_off A) (gslice g a b A B row n)
    (fun d st => let '(v, nsum) := st in
      m <- slice_matrix A row (d_row B) d nsum ;;
      Cmat <- dense_of_stdvector row n (repeat f0 (row * n)) ;;
      cv <- chunk_out C v (d * row * n) (row * n) ;;
      Cmat <- mul a m B b (d_set_val Cmat cv) ;;
      v <- chunk_in C v (d * row * n) (row * n) (d_val Cmat) ;;
      ci <- rd (k_cis A) d ;;
      Ok (v, nsum + length ci)) (t_val C)) as (v & E & HL & HN & HO).
  - lia.
  - intros. apply gslice_length.
  - intros d v Hd Hv.
    assert (Hdn : d * (row * n) + row * n <= U * (row * n))
      by (replace (d * (row * n) + row * n) with (S d * (row * n)) by lia; apply Nat.mul_le_mono_r; lia).
    destruct (slice_matrix_ok HR Hd) as (m & Em & Wm & Mr & Mc & Mrow). fold sh row col in Em, Mr, Mc, Mrow.
    rewrite <- HK. rewrite Em. cbn [bind].
    unfold dense_of_stdvector. rewrite dense_new_ok. cbn [bind d_first d_val].
    rewrite (@for_ext (list F) 0 _ _ (fun i t => x <- rd (repeat f0 (row * n)) i ;; wr t i x)) by reflexivity.
    rewrite (@copy_loop0 F f0) by (rewrite ?repeat_length; lia). cbn [bind].
    rewrite <- Nat.mul_assoc. rewrite chunk_out_eq by lia. cbn [bind].
    unfold d_set_val. cbn [d_row d_col d_val d_first d_nnz d_alloc d_own].
    destruct (@mul_step mul g a b A d m B n (firstn (row * n) (skipn (t_first C + d * (row * n)) v)) true) as (C' & E' & EV); auto.
    { rewrite firstn_length, skipn_length. fold sh row. lia. }
    fold sh row in E', EV. rewrite E'. cbn [bind]. rewrite EV.
    rewrite chunk_in_eq by (rewrite ?gslice_length; lia). cbn [bind].
    rewrite (@rd_lt _ (k_cis A) d []) by lia. cbn [bind].
    rewrite tr_off_S by lia. reflexivity.
  - change (tr_off A 0) with 0 in E. rewrite E. cbn [bind]. eexists; split; [reflexivity|].
    split; [unfold td_ok; cbn; repeat split; auto; lia|]. split; [auto|].
    split. { split; auto. cbn [t_val t_set_val]. intros k Hk. apply HO. lia. }
    intros p i j old Hp Hi Hj Hold.
    assert (Hpos : inside (t_shape C) (p ++ [i; j])) by (rewrite HCs; apply inside_app; auto; repeat constructor; auto).
    rewrite td_at_ok in Hold by auto. injection Hold as Hold.
    rewrite td_at_ok; [|unfold td_ok; cbn; repeat split; auto; lia|auto].
    f_equal. unfold tel in *. cbn [t_shape t_val t_first t_set_val].
    assert (Hrm : row_major (t_shape C) (p ++ [i; j]) = row_major (slices sh) p * (row * n) + (i * n + j)).
    { rewrite HCs, row_major_app by (auto; now apply inside_length). cbn [row_major prod]. lia. }
    rewrite Hrm in *. rewrite Nat.add_assoc in *.
    assert (Hij : i * n + j < row * n).
    { assert (S i * n <= row * n) by (apply Nat.mul_le_mono_r; lia). lia. }
    pose proof (row_major_lt Hp) as Hpl. fold U in Hpl.
    rewrite HN by auto. unfold gslice. rewrite nth_map_seq by auto. cbn [Nat.add].
    assert (Hdiv : (i * n + j) / n = i) by (rewrite Nat.div_add_l, Nat.div_small; lia).
    assert (Hmod : (i * n + j) mod n = j) by (rewrite Nat.add_comm, Nat.mod_add, Nat.mod_small; lia).
    rewrite Hdiv, Hmod. rewrite nth_firstn, nth_skipn by auto. rewrite Hold. reflexivity.
Qed.


Theorem tr_tensmul_ok mul g (a b : F) (A : tcrs F) (B C : tdense F) (rest : list nat) : mul_computes mul g ->
  tr_readable A -> td_ok B -> td_ok C -> t_shape B = n_cols (k_shape A) :: rest -> 0 < n_cols (k_shape A) ->
  t_shape C = slices (k_shape A) ++ n_rows (k_shape A) :: rest ->
  int_range (prod (t_shape B)) -> int_range (n_cols (k_shape A)) -> int_range (n_rows (k_shape A)) ->
  int_range (n_rows (k_shape A) * prod rest) ->
  exists C', tr_tensmul_ab mul a A B b C = Ok C' /\ td_ok C' /\ t_shape C' = t_shape C /\ tsame_outside C C' /\
    forall p i r old (w : nat -> F), inside (slices (k_shape A)) p -> i < n_rows (k_shape A) -> inside rest r ->
      td_at C (p ++ i :: r) = Ok old -> (forall k, k < n_cols (k_shape A) -> td_at B (k :: r) = Ok (w k)) ->
      exists w', (forall k, k < n_cols (k_shape A) -> w' k = w k) /\
      td_at C' (p ++ i :: r) = Ok (g a b old (tr_row A p i) w').
Proof.
  intros Hmul HR HB HC HBs Hcol HCs Z1 Z2 Z3 Z4. pose proof HR as (R1 & R2 & R3 & R4 & R5). pose proof HC as (C1 & C2 & C3).
  pose proof HB as (B1 & B2 & B3).
  set (sh := k_shape A) in *. set (U := prod (slices sh)) in *. set (row := n_rows sh) in *. set (col := n_cols sh) in *.
  set (n := prod rest) in *.
  pose proof (shape_form sh R1) as Hform. fold row col in Hform.
  assert (Hnnz : t_nnz C = U * (row * n)) by (rewrite C2, HCs, prod_app; cbn [prod]; unfold U, n; lia).
  assert (HBn : t_nnz B = col * n) by (rewrite B2, HBs; reflexivity).
  assert (Z5 : (Z.of_nat n < 2 ^ 31)%Z).
  { unfold int_range in *. rewrite HBs in Z1. cbn [prod] in Z1. fold n in Z1. assert (n <= col * n) by nia. lia. }
  unfold tr_tensmul_ab. fold sh. rewrite last_two_eq by auto. cbn [bind]. fold row col.
  rewrite HBs. change (rd (col :: rest) 0) with (Ok col). cbn [bind tl]. rewrite Nat.eqb_refl. cbn [assert_ bind].
  assert (Llen : length (slices sh) = length sh - 2) by (unfold slices; rewrite firstn_length; lia).
  assert (Hfn : firstn (length sh - 1) sh ++ rest = t_shape C).
  { rewrite HCs. rewrite Hform at 1 2. rewrite app_length, Llen. cbn [length].
    replace (length sh - 2 + 2 - 1) with (length (slices sh) + 1) by lia. rewrite firstn_app_2. cbn [firstn].
    rewrite <- app_assoc. reflexivity. }
  destruct (list_eq_dec Nat.eq_dec (firstn (length sh - 1) sh ++ rest) (t_shape C)) as [_|e]; [|congruence]. cbn [assert_ bind].
  rewrite R2. fold U. rewrite t_count_eq. cbn [prod]. fold n.
  set (Bm := mkDense col n (t_val B) (t_first B) (t_nnz B) (t_alloc B) (t_own B)).
  assert (WB : dense_ok Bm) by (repeat split; cbn; auto; lia).
  destruct (@chunk_loop U (row * n) (t_first C) (tr_off A) (gslice g a b A Bm row n)
    (fun d st => let '(v, nsum) := st in
      m <- slice_matrix A row col d nsum ;;
      Cmat <- td_of_stdvector (row :: rest) (repeat f0 (row * n)) ;;
      cv <- chunk_out C v (d * (row * n)) (row * n) ;;
      Cmat <- crs_mattens_ab mul a m B b (t_set_val Cmat cv) ;;
      v <- chunk_in C v (d * (row * n)) (row * n) (t_val Cmat) ;;
      ci <- rd (k_cis A) d ;;
      Ok (v, nsum + length ci)) (t_val C)) as (v & E & HL & HN & HO).
  - lia.
  - intros. apply gslice_length.
  - intros d v Hd Hv.
    assert (Hdn : d * (row * n) + row * n <= U * (row * n))
      by (replace (d * (row * n) + row * n) with (S d * (row * n)) by lia; apply Nat.mul_le_mono_r; lia).
    destruct (slice_matrix_ok HR Hd) as (m & Em & Wm & Mr & Mc & Mrow). fold sh row col in Em, Mr, Mc, Mrow.
    rewrite Em. cbn [bind].
    unfold td_of_stdvector, td_new, td_resize_shape, t_set_shape, td_empty. cbn [t_val t_first t_nnz t_alloc t_own].
    rewrite td_resize_empty. rewrite t_count_eq. cbn [prod]. fold n. cbn [bind t_shape t_val t_first t_nnz t_alloc t_own].
    rewrite (@for_ext (list F) 0 _ _ (fun i t => x <- rd (repeat f0 (row * n)) i ;; wr t i x)) by reflexivity.
    rewrite (@copy_loop0 F f0) by (rewrite ?repeat_length; lia). cbn [bind].
    rewrite chunk_out_eq by lia. cbn [bind].
    unfold crs_mattens_ab, as_dense, t_set_val. cbn [t_shape t_val t_first t_nnz t_alloc t_own].
    rewrite HBs. change (rd (col :: rest) 0) with (Ok col). cbn [bind].
    rewrite (@move_dims_row (t_nnz B) col n) by (auto; rewrite HBn; unfold int_range in *; rewrite HBs in Z1; exact Z1).
    cbn [bind d_col]. rewrite Mr. rewrite (@move_dims_both (row * n) row n) by auto. cbn [bind]. fold Bm.
    destruct (@mul_step mul g a b A d m Bm n (firstn (row * n) (skipn (t_first C + d * (row * n)) v)) true) as (C' & E' & EV); auto.
    { rewrite firstn_length, skipn_length. fold sh row. lia. }
    fold sh row in E', EV. rewrite E'. cbn [bind t_val]. rewrite EV.
    rewrite chunk_in_eq by (rewrite ?gslice_length; lia). cbn [bind].
    rewrite (@rd_lt _ (k_cis A) d []) by lia. cbn [bind].
    rewrite tr_off_S by lia. reflexivity.
  - change (tr_off A 0) with 0 in E. rewrite E. cbn [bind]. eexists; split; [reflexivity|].
    split; [unfold td_ok; cbn; repeat split; auto; lia|]. split; [auto|].
    split. { split; auto. cbn [t_val t_set_val]. intros k Hk. apply HO. lia. }
    intros p i r old w Hp Hi Hr Hold Hw.
    assert (Hpos : inside (t_shape C) (p ++ i :: r)) by (rewrite HCs; apply inside_app; auto; constructor; auto).
    rewrite td_at_ok in Hold by auto. injection Hold as Hold.
    exists (fun k => dense_fn Bm k (row_major rest r)). split.
    { intros k Hk. specialize (Hw k Hk). rewrite td_at_ok in Hw by (auto; rewrite HBs; constructor; auto).
      injection Hw as <-. unfold dense_fn, tel, Bm; cbn [d_col d_first d_val]. rewrite HBs. cbn [row_major]. fold n. f_equal. lia. }
    rewrite td_at_ok; [|unfold td_ok; cbn; repeat split; auto; lia|auto].
    f_equal. unfold tel in *. cbn [t_shape t_val t_first t_set_val].
    set (j := row_major rest r) in *. assert (Hj : j < n) by (now apply row_major_lt).
    assert (Hrm : row_major (t_shape C) (p ++ i :: r) = row_major (slices sh) p * (row * n) + (i * n + j)).
    { rewrite HCs, row_major_app; [cbn [row_major prod]; unfold j, n; lia|now apply inside_length|cbn; f_equal; now apply inside_length]. }
    rewrite Hrm in *. rewrite Nat.add_assoc in *.
    assert (Hij : i * n + j < row * n).
    { assert (S i * n <= row * n) by (apply Nat.mul_le_mono_r; lia). lia. }
    pose proof (row_major_lt Hp) as Hpl. fold U in Hpl.
    rewrite HN by auto. unfold gslice. rewrite nth_map_seq by auto. cbn [Nat.add].
    assert (Hdiv : (i * n + j) / n = i) by (rewrite Nat.div_add_l, Nat.div_small; lia).
    assert (Hmod : (i * n + j) mod n = j) by (rewrite Nat.add_comm, Nat.mod_add, Nat.mod_small; lia).
    rewrite Hdiv, Hmod. rewrite nth_firstn, nth_skipn by auto. rewrite Hold. reflexivity.
Qed.

End Products.
