(** * PropertiesPrint: C104, print_all prints exactly the elements of the object.

    [printed pv l]: one line per entry of [l], the indices counted from 1, then the value (PrintSpec); [pv v] is what
    the stream writes for the number [v].  [positions shape]: all positions in row-major order. *)
From Coq Require Import ZArith NArith Ascii String.
From Verif Require Import Base Scalar Spec DenseModel CooModel Observe CrsModel CrsObserve TensorModel TensorSpec TensorProof
  TensorCrsModel TensorCrsSpec ViewModel ViewSpec IoModel PrintModel PrintSpec PrintProof.
Import ListNotations.
Close Scope string_scope.
Open Scope list_scope.
Open Scope nat_scope.
Set Implicit Arguments.

Section C104.
Context {F : Type} {SF : Scalar F} (pv : F -> text).

(** [positions] lists every position inside the shape exactly once, in row-major order *)
Theorem C104_positions shape :
  (forall p, In p (positions shape) <-> inside shape p) /\ length (positions shape) = prod shape /\
  (forall d, d < prod shape -> row_major shape (nth d (positions shape) []) = d).
Proof. split; [apply positions_in|]. split; [apply positions_length|apply positions_row_major]. Qed.

(** vector: [val] is the buffer, [n] the size; the elements start at the start of the buffer.  Missing: vectors that
    are windows with an offset, see C104_window_refuted (vector prints from data() like Dense) *)
Theorem C104_vector_partial (val : list F) n : n <= length val ->
  print_vector pv val n = Ok (printed pv (map (fun k => ([], nth k val f0)) (seq 0 n))).
Proof.
  intros H. unfold print_vector. rewrite <- (Nat.add_0_l n) at 1.
  rewrite (@print_range_ok F SF pv val 0 n); auto. intros; lia.
Qed.
(** view1D with window [first, first + n) of the buffer *)
Theorem C104_view1D (val : list F) first n : first + n <= length val ->
  print_view1D pv val (mkWin first (first + n) n) = Ok (printed pv (map (fun k => ([], nth (first + k) val f0)) (seq 0 n))).
Proof.
  intros H. unfold print_view1D. cbn [n_first n_last]. apply print_range_ok; auto. intros; lia.
Qed.

(** Dense: all elements, row by row.  Missing: windows, see C104_window_refuted *)
Theorem C104_dense_partial (d : dense F) : dense_ok d -> d_first d = 0 ->
  print_dense pv d = Ok (printed pv (flat_map (fun i => map (fun j => ([i; j], dense_fn d i j)) (seq 0 (d_col d))) (seq 0 (d_row d)))).
Proof.
  intros (H1 & H2 & H3) H0. unfold print_dense.
  rewrite (@print_grid_ok F SF pv (d_val d) 0 (d_row d) (d_col d)) by (auto; lia).
  do 2 f_equal. apply flat_map_ext_in. intros i _. apply map_ext. intros j. unfold dense_fn. do 2 f_equal. rewrite H0. lia.
Qed.
(** view_Dense(t, start, row, col): elements start + i*col + j of the target.  Missing: targets that are windows *)
Theorem C104_view_dense_partial (t : target F) start row col :
  is_root t -> tg_ok t -> tg_off t = 0 -> start + row * col <= tg_nnz t ->
  print_view_dense pv (vd_new t start row col) t =
  Ok (printed pv (flat_map (fun i => map (fun j => ([i; j], elem t (start + i * col + j))) (seq 0 col)) (seq 0 row))).
Proof.
  intros H1 H2 H3 H4. unfold print_view_dense.
  assert (E : n_first (vd_win (vd_new t start row col)) = start).
  { destruct t; cbn; auto. destruct H1. }
  rewrite E. cbn [vd_row vd_col vd_new].
  assert (L : start + row * col <= length (tg_data t)).
  { destruct t; cbn in *; try lia. }
  rewrite (@print_grid_ok F SF pv (tg_data t) start row col) by auto.
  do 2 f_equal. apply flat_map_ext_in. intros i _. apply map_ext. intros j. unfold elem. now rewrite H3.
Qed.

(** CRS: the stored entries, row by row.  Missing: windows, see C104_window_refuted *)
Theorem C104_crs_partial (a : crs F) : crs_readable a -> m_first a = 0 -> int_range (m_col a) ->
  print_crs pv a = Ok (printed pv (map (fun e => ([fst (fst e); snd (fst e)], snd e)) (crs_entries a))).
Proof. apply print_crs_ok. Qed.

(** tensor_Dense: all elements, last index fastest.  Missing: windows *)
Theorem C104_tensor_dense_partial (t : tdense F) : td_ok t -> t_first t = 0 ->
  print_tdense pv t = Ok (printed pv (map (fun p => (p, nth (row_major (t_shape t) p) (t_val t) f0)) (positions (t_shape t)))).
Proof.
  intros (H1 & H2 & H3) H0. unfold print_tdense. rewrite H2.
  rewrite (@print_tensor_ok F SF pv (t_val t) 0 (t_shape t)) by (auto; lia). reflexivity.
Qed.
Theorem C104_view_tensor_partial (t : target F) start shape :
  is_root t -> tg_ok t -> tg_off t = 0 -> start + prod shape <= tg_nnz t ->
  print_view_tensor pv (vt_new t start shape) t =
  Ok (printed pv (map (fun p => (p, elem t (start + row_major shape p))) (positions shape))).
Proof.
  intros H1 H2 H3 H4. unfold print_view_tensor.
  assert (E : n_first (vt_win (vt_new t start shape)) = start).
  { destruct t; cbn; auto. destruct H1. }
  assert (R : n_range (vt_win (vt_new t start shape)) = prod shape).
  { cbn. now rewrite t_count_eq. }
  rewrite E, R. cbn [vt_shape vt_new].
  assert (L : start + prod shape <= length (tg_data t)).
  { destruct t; cbn in *; try lia. }
  rewrite (@print_tensor_ok F SF pv (tg_data t) start shape) by auto.
  do 2 f_equal. apply map_ext. intros p. unfold elem. now rewrite H3.
Qed.
(** tensor_COO: the stored entries, in order *)
Theorem C104_tensor_coo (q : tcoo F) : tc_ok q -> print_tcoo pv q = Ok (printed pv (tc_entries q)).
Proof. apply print_tcoo_ok. Qed.
(** tensor_CRS: the stored entries, slice by slice, row by row (windows included) *)
Theorem C104_tensor_crs (A : tcrs F) :
  tr_readable A -> k_first A + k_nnz A <= length (k_val A) ->
  (forall d, d < prod (slices (k_shape A)) -> length (nth d (k_rps A) []) = n_rows (k_shape A) + 1) ->
  (forall n, In n (k_shape A) -> int_range n) -> int_range (k_nnz A) ->
  print_tcrs pv A = Ok (printed pv
    (flat_map (fun p => flat_map (fun i => map (fun e => (p ++ [i; fst e], snd e)) (tr_row A p i)) (seq 0 (n_rows (k_shape A))))
       (positions (slices (k_shape A))))).
Proof. apply print_tcrs_ok. Qed.
End C104.

Section C104_coo.
Context {F : Type} {SF : Scalar F} {CF : Codec F}.
(** COO: the stored entries, in order *)
Theorem C104_coo (c : coo F) : coo_ok c ->
  (forall e, In e (coo_entries c) -> int_index (fst (fst e)) /\ int_index (snd (fst e))) ->
  print_all c = Ok (printed fprint (map (fun e => ([fst (fst e); snd (fst e)], snd e)) (coo_entries c))).
Proof.
  intros (H1 & H2 & H3 & H4 & _) Hi. unfold print_all.
  assert (L : length (coo_entries c) = c_nnz c).
  { unfold coo_entries. rewrite firstn_length, !combine_length. lia. }
  assert (N : forall k, k < c_nnz c -> nth k (coo_entries c) (0, 0, f0) = (nth k (c_ri c) 0, nth k (c_ci c) 0, nth k (c_val c) f0)).
  { intros k Hk. unfold coo_entries. rewrite <- !combine_nth by (rewrite ?combine_length; lia).
    rewrite <- (firstn_skipn (c_nnz c) (combine (combine (c_ri c) (c_ci c)) (c_val c))) at 2.
    rewrite app_nth1; [reflexivity|]. rewrite firstn_length, !combine_length. lia. }
  rewrite for_app with (g := fun k => line fprint ([nth k (c_ri c) 0; nth k (c_ci c) 0], nth k (c_val c) f0)).
  - cbn [app]. f_equal. rewrite Nat.sub_0_r, printed_flat, flat_map_map'.
    rewrite <- (map_seq_nth' (coo_entries c) (0, 0, f0)), L, flat_map_map'.
    apply flat_map_ext_in. intros k Hk. apply in_seq in Hk. now rewrite N by lia.
  - intros k o Hk. rewrite (rd_lt _ 0) by lia. cbn [bind]. rewrite (rd_lt _ 0) by lia. cbn [bind].
    rewrite (rd_lt _ f0) by lia. cbn [bind].
    destruct (Hi (nth k (coo_entries c) (0, 0, f0))) as (A & B); [apply nth_In; lia|].
    rewrite N in A, B by lia. cbn [fst snd] in A, B. unfold int_index in A, B.
    apply Z.ltb_lt in A. apply Z.ltb_lt in B. unfold entry_line, defined_. rewrite A, B. cbn [andb bind].
    f_equal. f_equal. unfold line. cbn [fst snd map concat]. rewrite app_nil_r, <- !app_assoc. reflexivity.
Qed.
End C104_coo.

Lemma for_undefined {S} lo hi i (body : nat -> S -> res S) s : lo <= i < hi ->
  (forall k s, lo <= k < hi -> body k s = UB \/ exists s', body k s = Ok s') -> (forall s, body i s = UB) ->
  for_ lo hi body s = UB.
Proof.
  intros Hi Hk Hu.
  assert (G : forall n, i < lo + n -> lo + n <= hi -> for_ lo (lo + n) body s = UB).
  { induction n as [|n IH]; intros A B; [lia|].
    replace (lo + Datatypes.S n) with (Datatypes.S (lo + n)) by lia. rewrite for_last by lia.
    destruct (Nat.eq_dec i (lo + n)) as [E | D].
    - subst i. assert (P : forall m, m <= n -> for_ lo (lo + m) body s = UB \/ exists s', for_ lo (lo + m) body s = Ok s').
      { induction m as [|m IHm]; intros L; [right; exists s; rewrite for_empty by lia; reflexivity|].
        replace (lo + Datatypes.S m) with (Datatypes.S (lo + m)) by lia. rewrite for_last by lia.
        destruct (IHm ltac:(lia)) as [-> | (s' & ->)]; cbn [bind]; [now left|]. apply Hk. lia. }
      destruct (P n (le_n _)) as [-> | (s' & ->)]; cbn [bind]; [reflexivity | apply Hu].
    - rewrite IH by lia. reflexivity. }
  replace hi with (lo + (hi - lo)) by lia. apply G; lia.
Qed.

(** the position of an entry is an int and is printed with 1 added to it: an object that stores an entry in row
    or column 2^31 - 1 (a position that fits an int) cannot be printed or written to a file *)
Theorem C104_coo_limit_refuted {F} {SF : Scalar F} {CF : Codec F} (c : coo F) r k v : coo_ok c ->
  In (r, k, v) (coo_entries c) -> (Z.of_nat r = 2 ^ 31 - 1 \/ Z.of_nat k = 2 ^ 31 - 1)%Z ->
  print_all c = UB /\ output_mm c = UB.
Proof.
  intros (H1 & H2 & H3 & H4 & _) HI HB.
  assert (E : print_all c = UB); [|split; [exact E | unfold output_mm; now rewrite E]].
  apply (In_nth _ _ (0, 0, f0)) in HI as (i & Li & Ei). unfold coo_entries in Li, Ei.
  rewrite firstn_length, !combine_length in Li.
  rewrite nth_firstn in Ei by lia.
  rewrite !combine_nth in Ei by (rewrite ?combine_length; lia). injection Ei as E1 E2 E3.
  unfold print_all. apply for_undefined with (i := i); [lia| |].
  - intros j s Hj. rewrite (rd_lt _ 0) by lia. cbn [bind]. rewrite (rd_lt _ 0) by lia. cbn [bind].
    rewrite (rd_lt _ f0) by lia. cbn [bind]. unfold entry_line, defined_.
    destruct (_ && _); cbn [bind]; eauto.
  - intros s. rewrite (rd_lt _ 0) by lia. cbn [bind]. rewrite (rd_lt _ 0) by lia. cbn [bind].
    rewrite (rd_lt _ f0) by lia. cbn [bind]. unfold entry_line, defined_. rewrite E1, E2.
    destruct HB as [HB | HB]; rewrite HB; rewrite Z.ltb_irrefl, ?andb_false_r; reflexivity.
Qed.
(** such an object exists *)
Lemma C104_coo_limit_met : exists c : coo Z, coo_ok c /\ exists r, In (r, 0, 5%Z) (coo_entries c) /\ Z.of_nat r = (2 ^ 31 - 1)%Z.
Proof.
  exists (mkCoo (Z.to_nat (2 ^ 31)) 1 [Z.to_nat (2 ^ 31 - 1)] [0] [5%Z] 1 1 true). split; [repeat split; cbn; lia|].
  exists (Z.to_nat (2 ^ 31 - 1)). split; [left; reflexivity|]. now rewrite Z2Nat.id.
Qed.

Definition pz (z : Z) : text := if (z <? 0)%Z then "-"%char :: print_nat (Z.to_nat (- z)) else print_nat (Z.to_nat z).

(** objects whose elements start behind the start of their buffer: print_all prints other elements of the buffer *)
Theorem C104_window_refuted :
  (exists (d : dense Z) t, dense_ok d /\ print_dense pz d = Ok t /\
     t <> printed pz (flat_map (fun i => map (fun j => ([i; j], dense_fn d i j)) (seq 0 (d_col d))) (seq 0 (d_row d)))) /\
  (exists (a : crs Z) t, crs_ok a /\ int_range (m_col a) /\ print_crs pz a = Ok t /\
     t <> printed pz (map (fun e => ([fst (fst e); snd (fst e)], snd e)) (crs_entries a))) /\
  (exists (t : tdense Z) out, td_ok t /\ print_tdense pz t = Ok out /\
     out <> printed pz (map (fun p => (p, nth (t_first t + row_major (t_shape t) p) (t_val t) f0)) (positions (t_shape t)))).
Proof.
  split; [|split].
  - exists (mkDense 1 2 [0;1;2;3]%Z 1 2 4 false). eexists. split; [unfold dense_ok, td_ok; cbn; lia|]. split; [vm_compute; reflexivity|]. vm_compute. discriminate.
  - exists (mkCrs 1 2 [0;2] [0;1] [0;1;2;3]%Z 1 2 4 false 0%N). eexists. split.
    { unfold crs_ok. cbn [m_row m_col m_rp m_ci m_val m_first m_nnz m_alloc]. unfold rpn, cin. cbn [m_row m_col m_rp m_ci m_val m_first m_nnz m_alloc].
      do 2 (split; [reflexivity|]). split; [intros [|i] Hi; [cbn; lia|lia]|]. do 2 (split; [cbn; lia|]).
      split; [intros [|[|k]] Hk; cbn; lia|]. cbn; lia. }
    split; [unfold int_range; cbn; lia|]. split; [vm_compute; reflexivity|]. vm_compute. discriminate.
  - exists (mkTD [2] [0;1;2;3]%Z 1 2 4 false). eexists. split; [unfold dense_ok, td_ok; cbn; lia|]. split; [vm_compute; reflexivity|]. vm_compute. discriminate.
Qed.

(** concrete objects *)
Example C104_example :
  dense_ok (mkDense 2 2 [1;-2;3;4]%Z 0 4 4 true) /\
  print_dense pz (mkDense 2 2 [1;-2;3;4]%Z 0 4 4 true)
    = Ok (list_ascii_of_string "1 1 1"%string ++ [nl] ++ list_ascii_of_string "1 2 -2"%string ++ [nl] ++
          list_ascii_of_string "2 1 3"%string ++ [nl] ++ list_ascii_of_string "2 2 4"%string ++ [nl]) /\
  tr_readable (mkTR [2;1;3] [[0;2];[0;1]] [[0;2];[1]] [5;6;7]%Z 0 3 3 true None) /\
  print_tcrs pz (mkTR [2;1;3] [[0;2];[0;1]] [[0;2];[1]] [5;6;7]%Z 0 3 3 true None)
    = Ok (list_ascii_of_string "1 1 1 5"%string ++ [nl] ++ list_ascii_of_string "1 1 3 6"%string ++ [nl] ++
          list_ascii_of_string "2 1 2 7"%string ++ [nl]).
Proof.
  split; [unfold dense_ok, td_ok; cbn; lia|]. split; [vm_compute; reflexivity|]. split; [|vm_compute; reflexivity].
  split; [cbn; lia|]. split; [reflexivity|]. split; [reflexivity|]. split; [reflexivity|].
  intros d Hd. cbn in Hd. exists (tr_slice (mkTR [2;1;3] [[0;2];[0;1]] [[0;2];[1]] [5;6;7]%Z 0 3 3 true None) d).
  assert (d = 0 \/ d = 1) as [-> | ->] by lia.
  - split; [unfold crs_sim; cbn; repeat split; auto|].
    unfold crs_ok. cbn. repeat split; try lia; intros [|[|k]] Hk; cbn in *; lia.
  - split; [unfold crs_sim; cbn; repeat split; auto|].
    unfold crs_ok. cbn. repeat split; try lia; intros [|[|k]] Hk; cbn in *; lia.
Qed.

Print Assumptions C104_positions.
Print Assumptions C104_vector_partial.
Print Assumptions C104_view1D.
Print Assumptions C104_dense_partial.
Print Assumptions C104_view_dense_partial.
Print Assumptions C104_coo.
Print Assumptions C104_crs_partial.
Print Assumptions C104_tensor_dense_partial.
Print Assumptions C104_view_tensor_partial.
Print Assumptions C104_tensor_coo.
Print Assumptions C104_tensor_crs.
Print Assumptions C104_window_refuted.
Print Assumptions C104_coo_limit_refuted.
