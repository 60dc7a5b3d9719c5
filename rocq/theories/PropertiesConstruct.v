(** * PropertiesConstruct: the constructors of COO, CRS, Dense and tensor_Dense (C108). *)
From Coq Require Import NArith.
From Verif Require CrsMiscProof.
From Verif Require Import Base Scalar Spec SumFacts DenseModel CooModel Loops Observe CooProof CooMiscProof CrsModel
  CrsObserve CrsProof CrsConvProof CrsTransProof TensorModel TensorSpec TensorProof TensorCooProof TensorConvProof SparseSetModel PropertiesSparseSet.
Set Implicit Arguments.

Section Construct.
Context {F : Type} {SF : Scalar F} {SC : Schedule}.

(** ** Dense *)
(** [d] is an M x N matrix in its own buffer whose element (i, j) is [f i j] *)
Definition dense_is (d : dense F) (M N : nat) (f : nat -> nat -> F) : Prop :=
  dense_ok d /\ dense_plain d /\ d_row d = M /\ d_col d = N /\
  forall i j, i < M -> j < N -> dense_at d i j = Ok (f i j).

Lemma dense_is_buf M N (v : list F) (f : nat -> nat -> F) : length v = M * N ->
  (forall i j, i < M -> j < N -> nth (N * i + j) v f0 = f i j) -> dense_is (mkDense M N v 0 (M * N) (M * N) true) M N f.
Proof.
  intros L H. assert (O : dense_ok (mkDense M N v 0 (M * N) (M * N) true)) by (unfold dense_ok; cbn; repeat split; auto; lia).
  split; [exact O|]. split; [split; auto|]. split; auto. split; auto. intros i j Hi Hj. rewrite dense_at_ok by auto. unfold dense_fn.
  cbn [d_first d_col d_val]. cbn [Nat.add]. now rewrite H.
Qed.

Lemma slot_lt M N i j : i < M -> j < N -> N * i + j < M * N.
Proof. intros. nia. Qed.

(** Dense(M, N, value* ) *)
Theorem C108_dense_array (M N : nat) (value : list F) : M * N <= length value ->
  exists d, dense_of_array M N value = Ok d /\ dense_is d M N (fun i j => nth (N * i + j) value f0).
Proof.
  intros H. unfold dense_of_array. rewrite dense_new_ok. cbn [bind d_nnz d_first d_val]. cbn [Nat.add].
  rewrite (@copy_loop0 F f0) by (rewrite ?repeat_length; lia). cbn [bind]. eexists; split; [reflexivity|].
  unfold d_set_val. cbn [d_row d_col d_first d_nnz d_alloc d_own]. apply dense_is_buf.
  - rewrite app_length, firstn_length, skipn_length, repeat_length. lia.
  - intros i j Hi Hj. pose proof (slot_lt Hi Hj). rewrite app_nth1 by (rewrite firstn_length; lia). apply nth_firstn. auto.
Qed.
(** Dense(M, N, std::vector) and Dense(M, N, {...}): the given elements in row-major order, zeros where the list is
    shorter than M*N; a longer list is written past the end of the buffer *)
Theorem C108_dense_list (M N : nat) (l : list F) :
  (length l <= M * N -> exists d, dense_of_list M N l = Ok d /\ dense_of_stdvector M N l = Ok d /\
     dense_is d M N (fun i j => nth (N * i + j) l f0)) /\
  (M * N < length l -> dense_of_list M N l = UB /\ dense_of_stdvector M N l = UB).
Proof.
  assert (E : dense_of_list M N l = dense_of_stdvector M N l) by reflexivity. rewrite E. unfold dense_of_stdvector. rewrite dense_new_ok.
  cbn [bind d_nnz d_first d_val]. cbn [Nat.add]. split.
  - intros H. rewrite (@copy_loop0 F f0) by (rewrite ?repeat_length; lia). cbn [bind]. eexists; split; [reflexivity|]. split; [reflexivity|].
    unfold d_set_val. cbn [d_row d_col d_first d_nnz d_alloc d_own]. apply dense_is_buf.
    + rewrite app_length, firstn_length, skipn_length, repeat_length. lia.
    + intros i j Hi Hj. pose proof (slot_lt Hi Hj). rewrite firstn_all2 by lia.
      destruct (le_lt_dec (length l) (N * i + j)) as [G|G].
      * rewrite app_nth2 by lia. rewrite (nth_overflow l) by lia. rewrite nth_skipn. apply List.nth_repeat.
      * now rewrite app_nth1 by lia.
  - intros H. assert (G : for_ 0 (length l) (fun i v => x <- rd l i;; wr v i x) (repeat f0 (M * N)) = UB).
    { rewrite (@for_split _ 0 (M * N) (length l)) by lia. rewrite (@copy_loop0 F f0) by (rewrite ?repeat_length; lia). cbn [bind].
      unfold for_. destruct (length l - M * N) as [|r] eqn:Er; [lia|]. cbn [iter_]. rewrite (@rd_lt _ _ _ f0) by lia. cbn [bind]. unfold wr.
      destruct (Nat.ltb_spec (M * N) (length (firstn (M * N) l ++ skipn (M * N) (repeat f0 (M * N))))) as [G|G]; [|reflexivity].
      rewrite app_length, firstn_length, skipn_length, repeat_length in G. lia. }
    rewrite G. auto.
Qed.
(** Dense(M, N, monolish::vector): the first M*N elements of the vector, in row-major order (offset vectors included) *)
Theorem C108_dense_vector (M N : nat) (buf : list F) (first nnz : nat) : first + nnz <= length buf -> M * N <= nnz ->
  exists d, dense_of_vector M N buf first nnz = Ok d /\ dense_is d M N (fun i j => nth (first + (N * i + j)) buf f0).
Proof.
  intros H1 H2. unfold dense_of_vector. rewrite dense_new_ok. cbn [bind d_nnz d_first d_val].
  destruct (@copy_loop F f0 (M * N) 0 first buf (repeat f0 (M * N))) as (w & -> & Lw & Pw); [rewrite repeat_length; lia|lia|]. cbn [bind].
  eexists; split; [reflexivity|]. cbn [d_row d_col d_alloc d_own]. apply dense_is_buf; [now rewrite Lw, repeat_length|].
  intros i j Hi Hj. pose proof (slot_lt Hi Hj). rewrite Pw. rewrite (proj2 (Nat.ltb_lt _ (0 + M * N))) by lia. cbn [Nat.leb andb]. f_equal. lia.
Qed.
(** Dense(M, N, min, max[, seed]): element (i, j) is the number drawn at step N*i+j, so all elements lie in any set the
    generator stays in, and equal draws (the same seed) give equal matrices *)
Theorem C108_dense_random (M N : nat) (draw : nat -> F) :
  exists d, dense_of_stream M N draw = Ok d /\ dense_is d M N (fun i j => draw (N * i + j)).
Proof.
  unfold dense_of_stream. rewrite dense_new_ok. cbn [bind d_nnz d_first d_val].
  destruct (@elem_loop F f0 (fun i _ => draw i) 0 (M * N) 0 (fun i t => wr t (0 + i) (draw i)) (repeat f0 (M * N))) as (w & -> & Lw & Pw);
    [lia|rewrite repeat_length; lia| |].
  { intros i t' Hi HL. rewrite repeat_length in HL. apply wr_lt. lia. }
  cbn [bind]. eexists; split; [reflexivity|]. cbn [d_row d_col d_alloc d_own]. apply dense_is_buf; [now rewrite Lw, repeat_length|].
  intros i j Hi Hj. pose proof (slot_lt Hi Hj). rewrite Pw. rewrite (proj2 (Nat.ltb_lt _ (0 + M * N))) by lia. cbn [Nat.add Nat.leb andb]. f_equal. lia.
Qed.
(** Dense(M, N, value) and Dense(mat, value) *)
Theorem C108_dense_value (M N : nat) (value : F) :
  exists d, dense_of_value M N value = Ok d /\ dense_is d M N (fun _ _ => value).
Proof.
  unfold dense_of_value. rewrite dense_new_ok. cbn [bind d_nnz d_first d_val].
  destruct (@vbcast_ok F f0 value (M * N) 0 (repeat f0 (M * N))) as (w & -> & Lw & Pw); [rewrite repeat_length; lia|]. cbn [bind].
  eexists; split; [reflexivity|]. cbn [d_row d_col d_alloc d_own]. apply dense_is_buf; [now rewrite Lw, repeat_length|].
  intros i j Hi Hj. pose proof (slot_lt Hi Hj). rewrite Pw. now rewrite (proj2 (Nat.ltb_lt _ (0 + M * N))) by lia.
Qed.
Theorem C108_dense_copy_value (m : dense F) (value : F) : dense_ok m ->
  exists d, dense_copy_value m value = Ok d /\ dense_is d (d_row m) (d_col m) (fun _ _ => value).
Proof.
  intros (H1 & H2 & H3). unfold dense_copy_value.
  assert (E : dense_resize (F:=F) dense_empty (d_nnz m) f0 = Ok (mkDense 0 0 (repeat f0 (d_nnz m)) 0 (d_nnz m) (d_nnz m) true)).
  { unfold dense_resize, dense_empty. cbn [d_first d_alloc d_own d_nnz d_val d_row d_col]. cbn [Nat.add Nat.ltb Nat.leb Nat.min].
    rewrite (@for_empty _ 0 0) by lia. cbn [bind]. rewrite fill_loop0 by (rewrite ?repeat_length; lia). cbn [bind].
    rewrite firstn_O, Nat.sub_0_r, skipn_all2 by (rewrite repeat_length; lia). rewrite app_nil_r. reflexivity. }
  rewrite E. cbn [bind d_nnz d_first d_val].
  destruct (@vbcast_ok F f0 value (d_nnz m) 0 (repeat f0 (d_nnz m))) as (w & -> & Lw & Pw); [rewrite repeat_length; lia|]. cbn [bind].
  eexists; split; [reflexivity|]. cbn [d_row d_col d_alloc d_own]. rewrite H2 in *. apply dense_is_buf; [now rewrite Lw, repeat_length|].
  intros i j Hi Hj. pose proof (slot_lt Hi Hj). rewrite Pw. now rewrite (proj2 (Nat.ltb_lt _ (0 + _))) by lia.
Qed.

(** ** COO(M, N, NNZ, row, col, value, origin) *)
Lemma coo_of_arrays_eq M N NNZ (row col : list nat) (value : list F) : NNZ <= length row -> NNZ <= length col -> NNZ <= length value ->
  coo_of_arrays M N NNZ row col value = Ok (mkCoo M N (firstn NNZ row) (firstn NNZ col) (firstn NNZ value) NNZ NNZ true).
Proof.
  intros H1 H2 H3. unfold coo_of_arrays, coo_resize. csimpl.
  rewrite Nat.min_0_l, (@for_empty _ 0 0) by lia. cbn [bind].
  rewrite fill_loop0 by (rewrite ?repeat_length; lia). cbn [bind]. csimpl.
  rewrite (@copy_loop0 nat 0) by (rewrite ?vresize_length; lia). cbn [bind].
  rewrite (@copy_loop0 nat 0) by (rewrite ?vresize_length; lia). cbn [bind].
  rewrite (@copy_loop0 F f0) by (rewrite ?app_length, ?firstn_length, ?skipn_length, ?repeat_length; lia).
  cbn [bind].
  rewrite !skipn_all2 by (rewrite ?vresize_length, ?app_length, ?firstn_length, ?skipn_length, ?repeat_length; lia).
  rewrite !app_nil_r. reflexivity.
Qed.

Theorem C108_coo_origin (M N NNZ : nat) (row col : list nat) (value : list F) (origin : nat) :
  NNZ <= length row -> NNZ <= length col -> NNZ <= length value ->
  (forall i, i < NNZ -> origin <= nth i row 0 /\ origin <= nth i col 0) ->
  exists c, coo_of_arrays_origin M N NNZ row col value origin = Ok c /\ coo_ok c /\ c_row c = M /\ c_col c = N /\
    coo_entries c = map (fun i => (nth i row 0 - origin, nth i col 0 - origin, nth i value f0)) (seq 0 NNZ).
Proof.
  intros H1 H2 H3 H4. unfold coo_of_arrays_origin. rewrite coo_of_arrays_eq by auto. cbn [bind]. csimpl.
  match goal with |- context [for_ 0 NNZ ?b ?s0] =>
    destruct (@for0_inv _ (fun k (s : list nat * list nat) => length (fst s) = NNZ /\ length (snd s) = NNZ /\ forall i, i < NNZ ->
       nth i (fst s) 0 = (if i <? k then nth i row 0 - origin else nth i row 0) /\
       nth i (snd s) 0 = (if i <? k then nth i col 0 - origin else nth i col 0)) NNZ b s0) as ((ri & ci) & E & I1 & I2 & I3) end.
  - cbn [fst snd]. rewrite !firstn_length. split; [lia|]. split; [lia|]. intros i Hi. rewrite !nth_firstn by auto. auto.
  - intros k (ri & ci) Hk (I1 & I2 & I3). cbn [fst snd] in *. destruct (I3 k Hk) as [J1 J2]. rewrite Nat.ltb_irrefl in J1, J2. destruct (H4 k Hk) as [O1 O2].
    rewrite (@rd_lt _ _ _ 0) by lia. cbn [bind]. rewrite J1, (proj2 (Nat.leb_le origin _) O1). cbn [require_ bind]. rewrite wr_lt by lia. cbn [bind].
    rewrite (@rd_lt _ _ _ 0) by lia. cbn [bind]. rewrite J2, (proj2 (Nat.leb_le origin _) O2). cbn [require_ bind]. rewrite wr_lt by lia. cbn [bind].
    eexists; split; [reflexivity|]. cbn [fst snd]. rewrite !upd_length. split; auto. split; auto. intros i Hi. destruct (I3 i Hi) as [K1 K2].
    destruct (Nat.eq_dec i k) as [->|Hne].
    + rewrite !nth_upd_same by lia. now rewrite (proj2 (Nat.ltb_lt k (S k))) by lia.
    + rewrite !nth_upd_other by auto. rewrite K1, K2. destruct (Nat.ltb_spec i k), (Nat.ltb_spec i (S k)); try lia; auto.
  - rewrite E. cbn [bind fst snd] in *. eexists; split; [reflexivity|]. csimpl.
    match goal with |- coo_ok ?x /\ _ => assert (O : coo_ok x) end.
    { unfold coo_ok; csimpl. rewrite firstn_length. repeat split; auto; lia. }
    split; [exact O|]. split; auto. split; auto.
    apply list_ext with (d := (0,0,f0)).
    + now rewrite map_length, seq_length, coo_entries_length.
    + intros i Hi. rewrite coo_entries_length in Hi by auto. cbn [c_nnz] in Hi. rewrite coo_entries_nth by auto. csimpl.
      rewrite (nth_map_lt _ _ 0) by (rewrite seq_length; lia). rewrite seq_nth by lia. cbn [Nat.add].
      destruct (I3 i Hi) as [-> ->]. rewrite (proj2 (Nat.ltb_lt i NNZ) Hi), nth_firstn by auto. reflexivity.
Qed.

(** ** CRS *)
Lemma crs_of_arrays_eq' M N n (rp ci : list nat) (v : list F) : M + 1 <= length rp -> n <= length ci -> n <= length v ->
  crs_of_arrays M N n rp ci v = Ok (crs_compute_hash (mkCrs M N (firstn (M + 1) rp) (firstn n ci) (firstn n v) 0 n n true 0%N)).
Proof.
  intros H1 H2 H3. unfold crs_of_arrays, crs_resize. cbn [m_first m_alloc m_own m_nnz m_val m_row m_col m_rp m_ci m_hash]. cbn [Nat.add Nat.ltb Nat.leb Nat.min].
  rewrite (@for_empty _ 0 0) by lia. cbn [bind]. rewrite fill_loop0 by (rewrite ?repeat_length; lia). cbn [bind m_rp m_ci m_val m_first m_nnz m_alloc].
  unfold vcopyA. rewrite (@copy_loop0 nat 0 (M + 1)) by (rewrite ?repeat_length; lia). cbn [bind].
  rewrite (@copy_loop0 nat 0 n) by (rewrite ?repeat_length; lia). cbn [bind].
  rewrite (@copy_loop0 F f0) by (rewrite ?app_length, ?firstn_length, ?skipn_length, ?repeat_length; lia). cbn [bind].
  rewrite !skipn_all2 by (rewrite ?app_length, ?firstn_length, ?skipn_length, ?repeat_length; lia). rewrite !app_nil_r. reflexivity.
Qed.

(** [a] is the M x N matrix described by row pointers, column numbers and values *)
Definition crs_is (a : crs F) (M N : nat) (rp ci : list nat) (v : nat -> F) : Prop :=
  crs_ok a /\ crs_plain a /\ m_row a = M /\ m_col a = N /\ forall i, i < M -> crs_row a i = given_crs_row rp ci v i.

Lemma given_firstn M N n rp ci : given_crs_ok M N n rp ci -> given_crs_ok M N n (firstn (M + 1) rp) (firstn n ci).
Proof.
  intros (G1 & G2 & G3 & G4 & G5 & G6). rewrite (@firstn_all2 _ (M + 1)) by lia. unfold given_crs_ok. rewrite firstn_length.
  repeat split; auto; try lia. intros k Hk. rewrite nth_firstn by auto. auto.
Qed.

Lemma crs_is_built (a : crs F) M N n rp ci (v : nat -> F) : given_crs_ok M N n rp ci ->
  m_row a = M -> m_col a = N -> m_rp a = firstn (M + 1) rp -> m_ci a = firstn n ci -> m_nnz a = n -> length (m_val a) = m_alloc a ->
  m_first a = 0 -> m_own a = true -> n <= m_alloc a -> (forall k, k < n -> nth k (m_val a) f0 = v k) -> crs_is a M N rp ci v.
Proof.
  intros G E1 E2 E3 E4 E5 E6 E7 E8 E9 E10.
  destruct (@crs_built F SF a M N n (firstn (M + 1) rp) (firstn n ci) v (given_firstn G)) as [K1 K2]; auto; [lia| |].
  { intros k Hk. unfold vln. rewrite E7. auto. }
  split; auto. split; [split; auto|]. split; auto. split; auto. intros i Hi. rewrite K2 by auto. unfold given_crs_row.
  destruct G as (G1 & G2 & G3 & G4 & G5 & G6). rewrite (@firstn_all2 _ (M + 1)) by lia. apply map_ext_in. intros k Hk. apply in_seq in Hk. f_equal. apply nth_firstn.
  assert (Hm : forall j, j <= M -> i + 1 <= j -> nth (i + 1) rp 0 <= nth j rp 0).
  { intros j. induction j as [|j IH]; intros J1 J2; [lia|]. destruct (Nat.eq_dec (i + 1) (S j)) as [<-|]; auto.
    transitivity (nth j rp 0); [apply IH; lia|]. replace (S j) with (j + 1) by lia. apply G3. lia. }
  pose proof (Hm M ltac:(lia) ltac:(lia)). pose proof (G3 i Hi). lia.
Qed.

(** CRS(M, N, NNZ, rowptr, colind, value): the matrix the arrays describe *)
Theorem C108_crs_arrays (M N NNZ : nat) (rp ci : list nat) (v : list F) : given_crs_ok M N NNZ rp ci -> NNZ <= length v ->
  exists a, crs_of_arrays M N NNZ rp ci v = Ok a /\ crs_is a M N rp ci (fun k => nth k v f0).
Proof.
  intros G H. pose proof G as (G1 & _ & _ & _ & G5 & _). rewrite crs_of_arrays_eq' by lia. eexists; split; [reflexivity|].
  eapply crs_is_built with (n := NNZ); eauto; cbn [crs_compute_hash m_row m_col m_rp m_ci m_val m_first m_nnz m_alloc m_own]; auto.
  - rewrite firstn_length. lia.
  - intros k Hk. now rewrite nth_firstn.
Qed.
(** CRS(M, N, rowptr, colind, value) from std::vectors, and from a monolish::vector without offset.
    Missing from the full claim: a vector with an offset (C108_crs_vector_refuted). *)
Theorem C108_crs_vectors_partial (M N : nat) (rp ci : list nat) (v : list F) (nnz : nat) :
  (given_crs_ok M N (length v) rp ci -> exists a, crs_of_stdvectors M N rp ci v = Ok a /\ crs_is a M N rp ci (fun k => nth k v f0)) /\
  (given_crs_ok M N nnz rp ci -> nnz <= length v -> exists a, crs_of_vector M N rp ci v 0 nnz = Ok a /\ crs_is a M N rp ci (fun k => nth k v f0)).
Proof.
  split; [intros G; apply (C108_crs_arrays v G); lia|intros G H; apply (C108_crs_arrays v G); lia].
Qed.
(** CRS(..., origin): rowptr starts at 0, the column numbers are counted from [origin] (as the header documents) *)
Theorem C108_crs_origin (M N NNZ : nat) (rp ci : list nat) (v : list F) (origin : nat) :
  given_crs_ok M N NNZ rp (map (fun x => x - origin) ci) -> NNZ <= length v -> (forall k, k < NNZ -> origin <= nth k ci 0) ->
  exists a, crs_of_arrays_origin M N NNZ rp ci v origin = Ok a /\ crs_is a M N rp (map (fun x => x - origin) ci) (fun k => nth k v f0).
Proof.
  intros G H HO. pose proof G as (G1 & _ & _ & _ & G5 & _). rewrite map_length in G5. unfold crs_of_arrays_origin. rewrite crs_of_arrays_eq' by lia.
  cbn [bind crs_compute_hash m_row m_col m_rp m_ci m_val m_first m_nnz m_alloc m_own].
  match goal with |- context [for_ 0 NNZ ?b ?s0] =>
    destruct (@for0_inv _ (fun k (s : list nat) => length s = NNZ /\ forall i, i < NNZ ->
       nth i s 0 = (if i <? k then nth i ci 0 - origin else nth i ci 0)) NNZ b s0) as (w & E & I1 & I2) end.
  - rewrite firstn_length. split; [lia|]. intros i Hi. now rewrite nth_firstn.
  - intros k s Hk (I1 & I2). pose proof (I2 k Hk) as J. rewrite Nat.ltb_irrefl in J. rewrite (@rd_lt _ _ _ 0) by lia. cbn [bind].
    rewrite J, (proj2 (Nat.leb_le origin _) (HO k Hk)). cbn [require_ bind]. rewrite wr_lt by lia. eexists; split; [reflexivity|].
    rewrite upd_length. split; auto. intros i Hi. destruct (Nat.eq_dec i k) as [->|Hne].
    + rewrite nth_upd_same by lia. now rewrite (proj2 (Nat.ltb_lt k (S k))) by lia.
    + rewrite nth_upd_other by auto. rewrite (I2 i Hi). destruct (Nat.ltb_spec i k), (Nat.ltb_spec i (S k)); try lia; auto.
  - rewrite E. cbn [bind]. eexists; split; [reflexivity|].
    eapply crs_is_built with (n := NNZ); eauto; cbn [crs_compute_hash m_row m_col m_rp m_ci m_val m_first m_nnz m_alloc m_own]; auto.
    + apply list_ext with (d := 0).
      * rewrite firstn_length, map_length. lia.
      * intros i Hi. rewrite I1 in Hi. rewrite nth_firstn by auto. rewrite (nth_map_lt _ _ 0) by lia. rewrite I2 by auto.
        now rewrite (proj2 (Nat.ltb_lt i NNZ) Hi).
    + rewrite firstn_length. lia.
    + intros k Hk. now rewrite nth_firstn.
Qed.
(** CRS(M, N, NNZ): no row has an entry yet *)
Theorem C108_crs_sized (M N NNZ : nat) :
  exists a : crs F, crs_sized M N NNZ = Ok a /\ m_row a = M /\ m_col a = N /\ m_nnz a = NNZ /\ length (m_rp a) = M + 1 /\
    length (m_ci a) = NNZ /\ length (m_val a) = NNZ /\ crs_entries a = [].
Proof.
  unfold crs_sized, crs_resize. cbn [m_first m_alloc m_own m_nnz m_val m_row m_col m_rp m_ci m_hash]. cbn [Nat.add Nat.ltb Nat.leb Nat.min].
  rewrite (@for_empty _ 0 0) by lia. cbn [bind]. rewrite fill_loop0 by (rewrite ?repeat_length; lia). cbn [bind].
  eexists; split; [reflexivity|]. cbn [m_row m_col m_nnz m_rp m_ci m_val]. rewrite !app_length, firstn_length, skipn_length, !repeat_length.
  repeat split; auto; try lia. unfold crs_entries. cbn [m_row]. rewrite flat_map_concat_map.
  apply concat_nil_Forall. apply Forall_map, Forall_forall. intros i Hi. unfold crs_row, rpn. cbn [m_rp].
  assert (Z : forall k, nth k (repeat 0 (M + 1)) 0 = 0) by (intros; apply List.nth_repeat). rewrite !Z. reflexivity.
Qed.

(** ** tensor_Dense *)
(** tensor_Dense(shape, min, max[, seed]): elements in row-major order are the draws in order *)
Theorem C108_tensor_random (shape : list nat) (draw : nat -> F) :
  exists t, td_of_stream shape draw = Ok t /\ td_ok t /\ td_plain t /\ t_shape t = shape /\
    forall pos, inside shape pos -> td_at t pos = Ok (draw (row_major shape pos)).
Proof.
  unfold td_of_stream. destruct (@td_new_ok F SF shape) as (t & -> & W & P & S & _). pose proof W as (H1 & H2 & H3). pose proof P as (P1 & P2). cbn [bind].
  destruct (@elem_loop F f0 (fun i _ => draw i) 0 (t_nnz t) (t_first t) (fun i w => wr w (t_first t + i) (draw i)) (t_val t)) as (w & -> & Lw & Pw); [lia|lia| |].
  { intros i t' Hi HL. apply wr_lt. lia. }
  cbn [bind]. eexists; split; [reflexivity|].
  assert (W' : td_ok (t_set_val t w)) by (unfold td_ok; cbn; rewrite Lw; auto).
  split; auto. split; [split; cbn; auto|]. split; auto. intros pos Hp. rewrite td_at_ok by (auto; cbn; now rewrite S).
  f_equal. unfold tel. cbn. rewrite S, Pw. pose proof (row_major_lt Hp). rewrite H2, S.
  rewrite (proj2 (Nat.leb_le _ _)), (proj2 (Nat.ltb_lt _ _)) by lia. cbn [andb]. f_equal. lia.
Qed.
(** tensor_Dense(tens, value) *)
Theorem C108_tensor_copy_value (s : tdense F) (value : F) : td_ok s ->
  exists t, td_copy_value s value = Ok t /\ td_ok t /\ td_plain t /\ t_shape t = t_shape s /\
    forall pos, inside (t_shape s) pos -> td_at t pos = Ok value.
Proof.
  intros (S1 & S2 & S3). unfold td_copy_value.
  destruct (@td_resize_ok F SF td_empty (t_nnz s) f0) as (t & E & L & Nn & A & Fz & O & _); auto. rewrite E. cbn [bind].
  destruct (@vbcast_ok F f0 value (t_nnz t) (t_first t) (t_val t)) as (w & -> & Lw & Pw); [lia|]. cbn [bind]. eexists; split; [reflexivity|].
  assert (W' : td_ok (t_set_shape (t_set_val t w) (t_shape s))) by (unfold td_ok; cbn; rewrite Lw; repeat split; auto; lia).
  split; auto. split; [split; cbn; auto|]. split; auto. intros pos Hp. rewrite td_at_ok by auto. f_equal. unfold tel. cbn. rewrite Pw, Fz.
  pose proof (row_major_lt Hp). now rewrite (proj2 (Nat.ltb_lt _ _)) by lia.
Qed.
(** tensor_Dense::convert(vector): a one-dimensional tensor with the vector's elements.
    Missing from the full claim: a vector with an offset (C108_convert_vector_refuted). *)
Theorem C108_convert_vector_partial (t : tdense F) (buf : list F) (nnz : nat) : nnz <= length buf ->
  length (t_val t) = t_alloc t -> t_nnz t <= t_alloc t -> t_first t = 0 ->
  exists t', td_convert_vector t buf 0 nnz = Ok t' /\ td_ok t' /\ td_plain t' /\ t_shape t' = [nnz] /\
    forall i, i < nnz -> td_at t' [i] = Ok (nth i buf f0).
Proof.
  intros H H1 H2 H3. unfold td_convert_vector.
  destruct (@td_resize_ok F SF (t_set_shape (t_set_own t) [nnz]) nnz f0) as (t1 & E & L & Nn & A & Fz & O & Sh); auto. rewrite E. cbn [bind].
  rewrite Nn. unfold vcopyA. rewrite (@copy_loop0 F f0) by lia. cbn [bind]. eexists; split; [reflexivity|]. cbn in Sh.
  match goal with |- td_ok ?x /\ _ => assert (W : td_ok x) end.
  { unfold td_ok. cbn. rewrite app_length, firstn_length, skipn_length, Fz, Sh, Nn. cbn. repeat split; auto; lia. }
  split; [exact W|]. split; [split; cbn; auto|]. split; auto. intros i Hi.
  assert (Hp : inside [nnz] [i]) by (repeat constructor; auto). rewrite td_at_ok by (auto; cbn; now rewrite Sh). f_equal. unfold tel. cbn. rewrite Fz, Sh.
  cbn. rewrite ?Nat.mul_1_r, ?Nat.add_0_r. rewrite app_nth1 by (rewrite firstn_length; lia). apply nth_firstn. auto.
Qed.

End Construct.

Section Refuted108.
Local Existing Instance Zscalar.
Local Existing Instance CrsMiscProof.one_thread.
Local Open Scope Z_scope.
(** a vector that starts at offset 1 of its buffer (4 | 5 6): CRS and tensor_Dense take the element in front of it *)
Theorem C108_crs_vector_refuted : exists a : crs Z,
  crs_of_vector 1 2 [0;2]%nat [0;1]%nat [4;5;6] 1 2 = Ok a /\ crs_entries a = [(0%nat,0%nat,4);(0%nat,1%nat,5)].
Proof. eexists. split; vm_compute; reflexivity. Qed.
Theorem C108_convert_vector_refuted : exists t : tdense Z,
  td_convert_vector td_empty [4;5;6] 1 2 = Ok t /\ td_at t [0%nat] = Ok 4 /\ td_at t [1%nat] = Ok 5.
Proof. eexists. split; [vm_compute; reflexivity|]. split; vm_compute; reflexivity. Qed.
(** row pointers counted from the same origin 1 as the columns (the usual Fortran form) give another matrix, without an
    error: the first entry is lost, and the last row reads past the stored values *)
Theorem C108_crs_origin_rowptr_refuted : exists a : crs Z,
  crs_of_arrays_origin 2 2 2 [1;2;3]%nat [1;2]%nat [5;6] 1 = Ok a /\ crs_row a 0 = [(1%nat,6)] /\ crs_matvec a [1;1] [0;0] = UB.
Proof. eexists. split; [vm_compute; reflexivity|]. split; vm_compute; reflexivity. Qed.
(** std::vector row pointers or column numbers that are too short are read past their end *)
Theorem C108_crs_short_refuted :
  crs_of_stdvectors 2 2 [0;1]%nat [0%nat] [5] = UB /\ crs_of_stdvectors 1 2 [0;2]%nat [0%nat] [5;6] = UB.
Proof. split; reflexivity. Qed.
(** a vector shorter than M*N is read past its end *)
Theorem C108_dense_vector_short_refuted : dense_of_vector 2 2 [1;2;3] 0 3 = UB.
Proof. reflexivity. Qed.

(** *** concrete cases *)
Example C108_origin_witness : exists c, coo_of_arrays_origin 2 2 2 [1;2]%nat [2;1]%nat [5;6] 1 = Ok c /\
  coo_entries c = [(0%nat,1%nat,5);(1%nat,0%nat,6)].
Proof. eexists. split; vm_compute; reflexivity. Qed.
Example C108_crs_origin_witness : given_crs_ok 2 2 2 [0;1;2]%nat (map (fun x => (x - 1)%nat) [2;1]%nat) /\
  exists a, crs_of_arrays_origin 2 2 2 [0;1;2]%nat [2;1]%nat [5;6] 1 = Ok a /\ crs_entries a = [(0%nat,1%nat,5);(1%nat,0%nat,6)].
Proof.
  split; [|eexists; split; vm_compute; reflexivity]. unfold given_crs_ok. cbn. repeat split; try lia; intros [|[|k]] H; cbn; lia.
Qed.
Example C108_dense_witness : exists d, dense_of_list 2 2 [1;2;3] = Ok d /\ dense_at d 1 0 = Ok 3 /\ dense_at d 1 1 = Ok 0.
Proof. eexists. split; [vm_compute; reflexivity|]. split; reflexivity. Qed.
End Refuted108.

Print Assumptions C108_dense_array.
Print Assumptions C108_dense_list.
Print Assumptions C108_dense_vector.
Print Assumptions C108_dense_random.
Print Assumptions C108_dense_value.
Print Assumptions C108_dense_copy_value.
Print Assumptions C108_coo_origin.
Print Assumptions C108_crs_arrays.
Print Assumptions C108_crs_vectors_partial.
Print Assumptions C108_crs_origin.
Print Assumptions C108_crs_sized.
Print Assumptions C108_tensor_random.
Print Assumptions C108_tensor_copy_value.
Print Assumptions C108_convert_vector_partial.
Print Assumptions C108_crs_vector_refuted.
Print Assumptions C108_convert_vector_refuted.
Print Assumptions C108_crs_origin_rowptr_refuted.
Print Assumptions C108_crs_short_refuted.
Print Assumptions C108_dense_vector_short_refuted.
