(** * PropertiesView: C103, view_Dense and view_tensor_Dense are windows onto their target.

    [elem t k]: element [k] of the object [t]; [assigned_range t t' lo n f]: [t'] is [t] with the elements lo, ...,
    lo+n-1 set to f 0, ..., f (n-1) and nothing else changed (ViewSpec).  [vd_new t start row col] is the constructor
    view_Dense(t, start, row, col). *)
From Verif Require Import Base Scalar Loops DenseModel TensorModel TensorSpec TensorProof ViewModel ViewSpec ViewProof.
Set Implicit Arguments.

Section C103.
Context {F : Type} {SF : Scalar F}.

(** ** view_Dense *)

(** at(i, j) is element start + i*col + j of the target; at(k) is element start + k *)
Theorem C103_at (t : target F) start row col i j :
  has_at t -> tg_ok t -> start + row * col <= tg_nnz t -> i < row -> j < col ->
  vd_at (vd_new t start row col) t i j = Ok (elem t (start + i * col + j)) /\
  vd_at1 (vd_new t start row col) t (i * col + j) = Ok (elem t (start + i * col + j)).
Proof.
  intros H1 H2 H3 Hi Hj. pose proof (flat_lt Hi Hj). unfold vd_at, vd_at1, vd_new. cbn [vd_win n_first vd_col].
  rewrite base_root by now apply has_root. cbn [Nat.add]. rewrite at_ok by (auto; lia). split; auto.
  rewrite Nat.add_assoc. apply at_ok; auto. lia.
Qed.
(** insert(i, j, x) sets exactly that element *)
Theorem C103_insert (t : target F) start row col i j x :
  has_at t -> tg_ok t -> start + row * col <= tg_nnz t -> i < row -> j < col ->
  exists t', vd_insert (vd_new t start row col) t i j x = Ok t' /\
    vd_insert1 (vd_new t start row col) t (i * col + j) x = Ok t' /\
    assigned_range t t' (start + i * col + j) 1 (fun _ => x).
Proof.
  intros H1 H2 H3 Hi Hj. pose proof (flat_lt Hi Hj). unfold vd_insert, vd_insert1, vd_new. cbn [vd_win n_first vd_col].
  rewrite base_root by now apply has_root. cbn [Nat.add]. rewrite Nat.add_assoc.
  destruct (@insert_ok F SF t (start + i * col + j) x) as (t' & E & A); auto; [lia|]. exists t'. auto.
Qed.
(** whatever the window and the indices are, at and insert read or write an element of the target or abort *)
Theorem C103_checked (v : vdense) (t : target F) i j x : has_at t -> tg_ok t ->
  (vd_at v t i j = Abort /\ vd_insert v t i j x = Abort /\ tg_nnz t <= n_first (vd_win v) + i * vd_col v + j) \/
  (exists t', vd_at v t i j = Ok (elem t (n_first (vd_win v) + i * vd_col v + j)) /\ vd_insert v t i j x = Ok t' /\
     n_first (vd_win v) + i * vd_col v + j < tg_nnz t).
Proof.
  intros H1 H2. unfold vd_at, vd_insert. set (k := n_first (vd_win v) + i * vd_col v + j).
  destruct (Nat.lt_ge_cases k (tg_nnz t)).
  - right. destruct (@insert_ok F SF t k x) as (t' & E & _); auto. exists t'. rewrite at_ok by auto. auto.
  - left. rewrite at_out, insert_out by auto. auto.
Qed.

(** operator[], fill and operator= for targets whose elements start at the start of their buffer.  Missing from the
    full claim: targets that are themselves windows ([tg_off t > 0]), see C103_offset_refuted *)
Theorem C103_index_partial (t : target F) start row col k x :
  is_root t -> tg_ok t -> tg_off t = 0 -> start + row * col <= tg_nnz t -> k < row * col ->
  n_get (vd_win (vd_new t start row col)) t k = Ok (elem t (start + k)) /\
  exists t', n_set (vd_win (vd_new t start row col)) t k x = Ok t' /\ assigned_range t t' (start + k) 1 (fun _ => x).
Proof.
  intros H1 H2 H3 H4 H5. pose proof (ok_bounds t H2).
  assert (E : n_first (vd_win (vd_new t start row col)) = start) by (cbn; now rewrite base_root).
  split.
  - rewrite get_ok; rewrite ?E; auto; lia.
  - destruct (@set_ok F SF t (vd_win (vd_new t start row col)) k x) as (t' & A & B); rewrite ?E in *; auto; [lia|]. eauto.
Qed.
Theorem C103_fill_partial (t : target F) start row col x :
  is_root t -> tg_ok t -> tg_off t = 0 -> start + row * col <= tg_nnz t ->
  exists t', n_fill (vd_win (vd_new t start row col)) t x = Ok t' /\ assigned_range t t' start (row * col) (fun _ => x).
Proof.
  intros H1 H2 H3 H4. pose proof (ok_bounds t H2).
  assert (E : n_first (vd_win (vd_new t start row col)) = start) by (cbn; now rewrite base_root).
  destruct (@fill_ok F SF t (vd_win (vd_new t start row col)) x) as (t' & A & B); auto.
  - cbn. rewrite base_root by auto. cbn. lia.
  - rewrite E in B. eauto.
Qed.
Theorem C103_assign_dense_partial (t : target F) start row col (d : dense F) :
  is_root t -> tg_ok t -> tg_off t = 0 -> start + row * col <= tg_nnz t ->
  tg_ok (TgDense d) -> d_nnz d = d_row d * d_col d ->
  (d_row d = row -> d_col d = col ->
   exists t', vd_assign_dense (vd_new t start row col) t d = Ok t' /\
     assigned_range t t' start (row * col) (elem (TgDense d))) /\
  (d_row d <> row \/ d_col d <> col -> vd_assign_dense (vd_new t start row col) t d = Abort).
Proof.
  intros H1 H2 H3 H4 (H5 & H6) H7. pose proof (ok_bounds t H2).
  assert (E : n_first (vd_win (vd_new t start row col)) = start) by (cbn; now rewrite base_root).
  unfold vd_assign_dense. split.
  - intros R C. cbn [vd_row vd_col vd_new]. rewrite R, C, !Nat.eqb_refl. cbn [andb assert_ bind].
    destruct (@copy_ok F SF t (vd_win (vd_new t start row col)) (d_val d) (d_first d)) as (t' & A & B); auto; rewrite ?E in *; cbn [n_range vd_win vd_new] in *;
      try lia; try nia.
    exists t'. split; auto.
  - cbn [vd_row vd_col vd_new]. intros [N|N]; apply not_eq_sym, Nat.eqb_neq in N; rewrite N, ?andb_false_r; reflexivity.
Qed.
(** assignment between views of different objects *)
Theorem C103_assign_view_partial (t s : target F) start row col start' row' col' :
  is_root t -> tg_ok t -> tg_off t = 0 -> start + row * col <= tg_nnz t ->
  is_root s -> tg_ok s -> tg_off s = 0 -> start' + row' * col' <= tg_nnz s ->
  (row = row' -> col = col' ->
   exists t', vd_assign_view (vd_new t start row col) t (vd_new s start' row' col') s = Ok t' /\
     assigned_range t t' start (row * col) (fun k => elem s (start' + k))) /\
  (row <> row' \/ col <> col' -> vd_assign_view (vd_new t start row col) t (vd_new s start' row' col') s = Abort).
Proof.
  intros H1 H2 H3 H4 H1' H2' H3' H4'. pose proof (ok_bounds t H2). pose proof (ok_bounds s H2').
  assert (E : n_first (vd_win (vd_new t start row col)) = start) by (cbn; now rewrite base_root).
  assert (E' : n_begin (vd_win (vd_new s start' row' col')) = start') by (cbn; now rewrite base_root).
  unfold vd_assign_view. split.
  - intros R C. cbn [vd_row vd_col vd_new]. rewrite R, C, !Nat.eqb_refl. cbn [andb assert_ bind]. rewrite R, C in *.
    change (mkWin (tg_base s + start') (tg_base s + start' + row' * col') (row' * col')) with (vd_win (vd_new s start' row' col')).
    change (mkWin (tg_base t + start) (tg_base t + start + row' * col') (row' * col')) with (vd_win (vd_new t start row' col')).
    rewrite E'.
    destruct (@copy_ok F SF t (vd_win (vd_new t start row' col')) (tg_data s) start') as (t' & A & B); auto; rewrite ?E in *; cbn [n_range vd_win vd_new] in *;
      try lia.
    exists t'. split; [exact A|]. eapply range_ext; [exact B|]. cbn beta. intros k Hk. unfold elem. now rewrite H3'.
  - cbn [vd_row vd_col vd_new]. intros [N|N]; apply Nat.eqb_neq in N; rewrite N, ?andb_false_r; reflexivity.
Qed.

(** resize: the window keeps its start and gets the new size, if the target is long enough *)
Theorem C103_resize (t : target F) start row col row' col' : is_root t ->
  (start + row' * col' <= tg_nnz t -> vd_resize (vd_new t start row col) t row' col' = Ok (vd_new t start row' col')) /\
  (tg_nnz t < start + row' * col' -> vd_resize (vd_new t start row col) t row' col' = Abort).
Proof.
  intros H. unfold vd_resize, vd_new. cbn [vd_win n_first]. rewrite base_root by auto. cbn [Nat.add]. split; intros L.
  - rewrite (proj2 (Nat.leb_le _ _) L). reflexivity.
  - rewrite (proj2 (Nat.leb_gt _ _) L). reflexivity.
Qed.

(** every program of at, insert, operator[], fill and operator= on a view of a row x col window acts as it would on a
    row x col matrix of its own; the rest of the target does not change *)
Theorem C103_history_partial (t : target F) start row col (l : list vop) M :
  has_at t -> tg_ok t -> tg_off t = 0 -> start + row * col <= tg_nnz t -> Forall (vop_ok row col) l ->
  (forall i j, i < row -> j < col -> M i j = elem t (start + i * col + j)) ->
  exists t', vrun (vd_new t start row col) t l = Ok (fst (vmeaning col M l), t') /\
    assigned_range t t' start (row * col) (fun k => snd (vmeaning col M l) (k / col) (k mod col)).
Proof.
  intros H1 H2 H3 H4 HF HM. apply run_ok; auto. unfold rel. pose proof (ok_bounds t H2).
  eapply range_ext; [apply range_refl; lia|]. cbn beta. intros k Hk. assert (col <> 0) by nia.
  rewrite HM; [|apply Nat.div_lt_upper_bound; nia|apply Nat.mod_upper_bound; auto].
  f_equal. pose proof (Nat.div_mod k col ltac:(auto)). lia.
Qed.

(** ** view_tensor_Dense *)
Theorem C103_tensor_at (t : target F) start shape pos :
  has_at t -> tg_ok t -> start + prod shape <= tg_nnz t -> inside shape pos ->
  vt_at (vt_new t start shape) t pos = Ok (elem t (start + row_major shape pos)) /\
  vt_at1 (vt_new t start shape) t (row_major shape pos) = Ok (elem t (start + row_major shape pos)).
Proof.
  intros H1 H2 H3 Hp. pose proof (row_major_lt Hp). unfold vt_at, vt_at1, vt_new. cbn [vt_win vt_shape n_first].
  rewrite base_root by now apply has_root. cbn [Nat.add]. rewrite t_index_eq by now apply inside_length. cbn [bind].
  rewrite at_ok by (auto; lia). auto.
Qed.
Theorem C103_tensor_insert (t : target F) start shape pos x :
  has_at t -> tg_ok t -> start + prod shape <= tg_nnz t -> inside shape pos ->
  exists t', vt_insert (vt_new t start shape) t pos x = Ok t' /\
    vt_insert1 (vt_new t start shape) t (row_major shape pos) x = Ok t' /\
    assigned_range t t' (start + row_major shape pos) 1 (fun _ => x).
Proof.
  intros H1 H2 H3 Hp. pose proof (row_major_lt Hp). unfold vt_insert, vt_insert1, vt_new. cbn [vt_win vt_shape n_first].
  rewrite base_root by now apply has_root. cbn [Nat.add]. rewrite t_index_eq by now apply inside_length. cbn [bind].
  destruct (@insert_ok F SF t (start + row_major shape pos) x) as (t' & E & A); auto; [lia|]. eauto.
Qed.
(** a position of the wrong rank is refused *)
Theorem C103_tensor_rank (v : vtens) (t : target F) pos x : length pos <> length (vt_shape v) ->
  vt_at v t pos = Throw /\ vt_insert v t pos x = Throw.
Proof. intros H. unfold vt_at, vt_insert. rewrite t_index_rank by auto. auto. Qed.
Theorem C103_tensor_fill_partial (t : target F) start shape x :
  is_root t -> tg_ok t -> tg_off t = 0 -> start + prod shape <= tg_nnz t ->
  exists t', n_fill (vt_win (vt_new t start shape)) t x = Ok t' /\ assigned_range t t' start (prod shape) (fun _ => x).
Proof.
  intros H1 H2 H3 H4. pose proof (ok_bounds t H2).
  assert (E : n_first (vt_win (vt_new t start shape)) = start) by (cbn; now rewrite base_root).
  assert (R : n_range (vt_win (vt_new t start shape)) = prod shape) by (cbn; apply t_count_eq).
  assert (L : n_last (vt_win (vt_new t start shape)) = start + prod shape) by (cbn; rewrite base_root, t_count_eq by auto; reflexivity).
  destruct (@fill_ok F SF t (vt_win (vt_new t start shape)) x) as (t' & A & B); rewrite ?L, ?E, ?R in *; auto; [lia|]. eauto.
Qed.
Theorem C103_tensor_index_partial (t : target F) start shape k x :
  is_root t -> tg_ok t -> tg_off t = 0 -> start + prod shape <= tg_nnz t -> k < prod shape ->
  n_get (vt_win (vt_new t start shape)) t k = Ok (elem t (start + k)) /\
  exists t', n_set (vt_win (vt_new t start shape)) t k x = Ok t' /\ assigned_range t t' (start + k) 1 (fun _ => x).
Proof.
  intros H1 H2 H3 H4 H5. pose proof (ok_bounds t H2).
  assert (E : n_first (vt_win (vt_new t start shape)) = start) by (cbn; now rewrite base_root).
  split.
  - rewrite get_ok; rewrite ?E; auto; lia.
  - destruct (@set_ok F SF t (vt_win (vt_new t start shape)) k x) as (t' & A & B); rewrite ?E in *; auto; [lia|]. eauto.
Qed.
Theorem C103_tensor_assign_partial (t : target F) start shape (s : tdense F) :
  is_root t -> tg_ok t -> tg_off t = 0 -> start + prod shape <= tg_nnz t -> td_ok s ->
  (t_shape s = shape ->
   exists t', vt_assign_tens (vt_new t start shape) t s = Ok t' /\ assigned_range t t' start (prod shape) (elem (TgTens s))) /\
  (t_shape s <> shape -> vt_assign_tens (vt_new t start shape) t s = Abort).
Proof.
  intros H1 H2 H3 H4 (S1 & S2 & S3). pose proof (ok_bounds t H2).
  assert (E : n_first (vt_win (vt_new t start shape)) = start) by (cbn; now rewrite base_root).
  assert (R : n_range (vt_win (vt_new t start shape)) = prod shape) by (cbn; apply t_count_eq).
  unfold vt_assign_tens. change (vt_shape (vt_new t start shape)) with shape. destruct (list_eq_dec Nat.eq_dec shape (t_shape s)) as [Q|Q].
  - split; [|congruence]. intros _. cbn [assert_ bind]. rewrite <- Q in S2.
    destruct (@copy_ok F SF t (vt_win (vt_new t start shape)) (t_val s) (t_first s)) as (t' & A & B); rewrite ?E, ?R in *; auto; try lia.
    exists t'. split; auto.
  - split; [congruence|]. reflexivity.
Qed.
Theorem C103_tensor_assign_view_partial (t s : target F) start shape start' shape' :
  is_root t -> tg_ok t -> tg_off t = 0 -> start + prod shape <= tg_nnz t ->
  is_root s -> tg_ok s -> tg_off s = 0 -> start' + prod shape' <= tg_nnz s ->
  (shape = shape' ->
   exists t', vt_assign_view (vt_new t start shape) t (vt_new s start' shape') s = Ok t' /\
     assigned_range t t' start (prod shape) (fun k => elem s (start' + k))) /\
  (shape <> shape' -> vt_assign_view (vt_new t start shape) t (vt_new s start' shape') s = Abort).
Proof.
  intros H1 H2 H3 H4 H1' H2' H3' H4'. pose proof (ok_bounds t H2). pose proof (ok_bounds s H2').
  assert (E : n_first (vt_win (vt_new t start shape)) = start) by (cbn; now rewrite base_root).
  assert (E' : n_begin (vt_win (vt_new s start' shape')) = start') by (cbn; now rewrite base_root).
  assert (R : n_range (vt_win (vt_new t start shape)) = prod shape) by (cbn; apply t_count_eq).
  unfold vt_assign_view. rewrite E'. change (vt_shape (vt_new t start shape)) with shape. change (vt_shape (vt_new s start' shape')) with shape'.
  destruct (list_eq_dec Nat.eq_dec shape shape') as [Q|Q]; [|split; [congruence|reflexivity]].
  split; [|congruence]. intros _. cbn [assert_ bind]. rewrite <- Q in *.
  destruct (@copy_ok F SF t (vt_win (vt_new t start shape)) (tg_data s) start') as (t' & A & B); rewrite ?E, ?R in *; auto; try lia.
  exists t'. split; [exact A|]. eapply range_ext; [exact B|]. cbn beta. intros k Hk. unfold elem. now rewrite H3'.
Qed.
Theorem C103_tensor_resize (t : target F) start shape shape' : is_root t ->
  (start + prod shape' <= tg_nnz t -> vt_resize (vt_new t start shape) t shape' = Ok (vt_new t start shape')) /\
  (tg_nnz t < start + prod shape' -> vt_resize (vt_new t start shape) t shape' = Abort).
Proof.
  intros H. unfold vt_resize, vt_new. cbn [vt_win n_first]. rewrite base_root by auto. cbn [Nat.add]. rewrite !t_count_eq. split; intros L.
  - rewrite (proj2 (Nat.leb_le _ _) L). reflexivity.
  - rewrite (proj2 (Nat.leb_gt _ _) L). reflexivity.
Qed.

(** ** a view of a view *)

(** operator[] of a view (start2) of a view (start1) reads element start1 + start2 + k of the object at the bottom *)
Theorem C103_nested_index (t : target F) start1 row1 col1 start2 row2 col2 k :
  is_root t -> tg_ok t -> tg_off t = 0 -> start1 + row1 * col1 <= tg_nnz t -> start2 + row2 * col2 <= row1 * col1 -> k < row2 * col2 ->
  let t2 := TgView (vd_win (vd_new t start1 row1 col1)) t in
  n_get (vd_win (vd_new t2 start2 row2 col2)) t2 k = Ok (elem t (start1 + start2 + k)).
Proof.
  intros H1 H2 H3 H4 H5 H6. pose proof (ok_bounds t H2). cbv zeta. unfold n_get. cbn [tg_data vd_new vd_win n_first tg_base].
  rewrite base_root by auto. cbn [Nat.add]. unfold elem. rewrite H3. rewrite (@rd_lt F _ _ f0) by lia. f_equal. f_equal. lia.
Qed.
(** at does so only if the first view starts at element 0.  Missing: start1 > 0, see C103_nested_refuted *)
Theorem C103_nested_at_partial (t : target F) row1 col1 start2 row2 col2 i j :
  has_at t -> tg_ok t -> row1 * col1 <= tg_nnz t -> start2 + row2 * col2 <= row1 * col1 -> i < row2 -> j < col2 ->
  let t2 := TgView (vd_win (vd_new t 0 row1 col1)) t in
  vd_at (vd_new t2 start2 row2 col2) t2 i j = Ok (elem t (start2 + i * col2 + j)).
Proof.
  intros H1 H2 H3 H4 Hi Hj. pose proof (flat_lt Hi Hj). cbv zeta. unfold vd_at. cbn [tg_at vd_new vd_win n_first tg_base vd_col].
  rewrite base_root by now apply has_root. cbn [Nat.add]. apply at_ok; auto. lia.
Qed.
End C103.
Print Assumptions C103_at.
Print Assumptions C103_insert.
Print Assumptions C103_checked.
Print Assumptions C103_index_partial.
Print Assumptions C103_fill_partial.
Print Assumptions C103_assign_dense_partial.
Print Assumptions C103_assign_view_partial.
Print Assumptions C103_resize.
Print Assumptions C103_history_partial.
Print Assumptions C103_tensor_at.
Print Assumptions C103_tensor_insert.
Print Assumptions C103_tensor_rank.
Print Assumptions C103_tensor_fill_partial.
Print Assumptions C103_tensor_index_partial.
Print Assumptions C103_tensor_assign_partial.
Print Assumptions C103_tensor_assign_view_partial.
Print Assumptions C103_tensor_resize.
Print Assumptions C103_nested_index.
Print Assumptions C103_nested_at_partial.

(** ** what is false of the code *)

(** a 3 x 3 matrix 0 .. 8 *)
Definition m9 : dense Z := mkDense 3 3 [0;1;2;3;4;5;6;7;8]%Z 0 9 9 true.

(** at(i, j) and insert(i, j) do not check the indices against the size of the view: a row or column beyond the last
    is an element of the next row, or of the target outside the view *)
Theorem C103_bounds_refuted : exists (t t' : target Z),
  has_at t /\ tg_ok t /\ 0 + 2 * 2 <= tg_nnz t /\
  vd_at (vd_new t 0 2 2) t 0 2 = vd_at (vd_new t 0 2 2) t 1 0 /\
  vd_at (vd_new t 0 2 2) t 2 0 = Ok 4%Z /\
  vd_insert (vd_new t 0 2 2) t 2 0 99%Z = Ok t' /\ elem t 4 = 4%Z /\ elem t' 4 = 99%Z.
Proof.
  exists (TgDense m9). eexists. split; [exact I|]. split; [cbn; auto|]. split; [cbn; lia|].
  do 3 (split; [vm_compute; reflexivity|]). split; reflexivity.
Qed.
(** the same for positions outside the shape of a view_tensor_Dense *)
Theorem C103_tensor_bounds_refuted : exists (t t' : target Z),
  has_at t /\ tg_ok t /\ 0 + prod [2;2] <= tg_nnz t /\ ~ inside [2;2] [2;0] /\
  vt_at (vt_new t 0 [2;2]) t [0;2] = vt_at (vt_new t 0 [2;2]) t [1;0] /\
  vt_insert (vt_new t 0 [2;2]) t [2;0] 99%Z = Ok t' /\ elem t 4 = 4%Z /\ elem t' 4 = 99%Z.
Proof.
  exists (TgDense m9). eexists. split; [exact I|]. split; [cbn; auto|]. split; [cbn; lia|].
  split; [intros H; inversion H; lia|].
  do 2 (split; [vm_compute; reflexivity|]). split; reflexivity.
Qed.
(** the constructor accepts a window that does not fit into the target; fill and operator[] then touch memory behind
    the buffer *)
Theorem C103_window_refuted : exists t : target Z,
  has_at t /\ tg_ok t /\ tg_nnz t < 8 + 2 * 2 /\
  n_fill (vd_win (vd_new t 8 2 2)) t 7%Z = UB /\ n_get (vd_win (vd_new t 8 2 2)) t 3 = UB /\
  n_fill (vt_win (vt_new t 8 [2;2])) t 7%Z = UB.
Proof.
  exists (TgDense m9). split; [exact I|]. split; [cbn; auto|]. split; [cbn; lia|]. repeat split; vm_compute; reflexivity.
Qed.
(** a target that is itself a window (here: elements 1 and 2 of a buffer of 4): at counts from its first element,
    operator[], fill and begin() from the start of its buffer *)
Theorem C103_offset_refuted : exists (t t' : target Z),
  has_at t /\ tg_ok t /\ 0 + 1 * 2 <= tg_nnz t /\
  vd_at1 (vd_new t 0 1 2) t 0 = Ok 1%Z /\ n_get (vd_win (vd_new t 0 1 2)) t 0 = Ok 0%Z /\
  n_fill (vd_win (vd_new t 0 1 2)) t 9%Z = Ok t' /\ elem t' 1 = 2%Z /\ tg_data t' = [9;9;2;3]%Z.
Proof.
  exists (TgDense (mkDense 1 2 [0;1;2;3]%Z 1 2 4 false)). eexists. split; [exact I|]. split; [cbn; lia|]. split; [cbn; lia|].
  do 3 (split; [vm_compute; reflexivity|]). split; reflexivity.
Qed.
(** at of a view of a view adds the start of the first view twice *)
Theorem C103_nested_refuted : exists t : target Z,
  has_at t /\ tg_ok t /\ 3 + 2 * 3 <= tg_nnz t /\
  (let t2 := TgView (vd_win (vd_new t 3 2 3)) t in
   n_get (vd_win (vd_new t2 1 1 2)) t2 0 = Ok 4%Z /\ vd_at1 (vd_new t2 1 1 2) t2 0 = Ok 7%Z /\
   vd_at1 (vd_new t2 3 1 2) t2 0 = Abort) /\
  (let t2 := TgView (vt_win (vt_new t 3 [2;3])) t in
   n_get (vt_win (vt_new t2 1 [2])) t2 0 = Ok 4%Z /\ vt_at (vt_new t2 1 [2]) t2 [0] = Ok 7%Z).
Proof.
  exists (TgDense m9). split; [exact I|]. split; [cbn; auto|]. split; [cbn; lia|]. cbv zeta. repeat split; vm_compute; reflexivity.
Qed.
(** end() is not begin() + size() *)
Theorem C103_end_refuted : exists (t : target Z), 2 + 2 * 2 <= tg_nnz t /\
  n_end (vd_win (vd_new t 2 2 2)) <> n_begin (vd_win (vd_new t 2 2 2)) + n_range (vd_win (vd_new t 2 2 2)).
Proof. exists (TgDense m9). split; [cbn; lia|]. vm_compute. discriminate. Qed.
(** set_first moves the start only: size() says 4, fill sets 1 element; set_last(get_last()) aborts *)
Theorem C103_set_first_refuted : exists (t t' : target Z) (w : win),
  w = n_set_first (vd_win (vd_new t 0 2 2)) 3 /\ n_range w = 4 /\ 3 + 4 <= tg_nnz t /\
  n_fill w t 9%Z = Ok t' /\ tg_data t' = [0;1;2;9;4;5;6;7;8]%Z.
Proof.
  exists (TgDense m9). eexists. eexists. split; [reflexivity|]. split; [reflexivity|]. split; [cbn; lia|].
  split; [vm_compute; reflexivity|]. reflexivity.
Qed.
Theorem C103_set_last_refuted : exists (t : target Z), 5 + 2 * 2 <= tg_nnz t /\
  n_set_last (vd_win (vd_new t 5 2 2)) t (n_last (vd_win (vd_new t 5 2 2))) = Abort.
Proof. exists (TgDense m9). split; [cbn; lia|]. vm_compute. reflexivity. Qed.
Print Assumptions C103_bounds_refuted.
Print Assumptions C103_tensor_bounds_refuted.
Print Assumptions C103_window_refuted.
Print Assumptions C103_offset_refuted.
Print Assumptions C103_nested_refuted.
Print Assumptions C103_end_refuted.
Print Assumptions C103_set_first_refuted.
Print Assumptions C103_set_last_refuted.

(** a concrete program on the last two rows of the matrix *)
Example C103_example : exists t',
  has_at (TgDense m9) /\ tg_ok (TgDense m9) /\ tg_off (TgDense m9) = 0 /\ 3 + 2 * 3 <= tg_nnz (TgDense m9) /\
  vrun (vd_new (TgDense m9) 3 2 3) (TgDense m9) [OAt 1 2; OInsert 0 1 20%Z; OGet 1; OSet 5 30%Z; OAt 1 2] = Ok ([8; 20; 30]%Z, t') /\
  tg_data t' = [0;1;2;3;20;5;6;7;30]%Z /\
  inside [2;3] [1;0] /\ vt_at (vt_new (TgDense m9) 3 [2;3]) (TgDense m9) [1;0] = Ok 6%Z.
Proof.
  eexists. split; [exact I|]. split; [cbn; auto|]. split; [reflexivity|]. split; [cbn; lia|].
  split; [vm_compute; reflexivity|]. split; [reflexivity|]. split; [repeat constructor|vm_compute; reflexivity].
Qed.
