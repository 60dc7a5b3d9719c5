(** * PropertiesDense: theorems for C20 (Dense part), C21, C22, C41, C46 (matvec/matmul), C47 (element-wise
    matrix operations), C48 (reading a diagonal, row or column).

    Only statements and concrete witnesses; proofs are in DenseProof and DenseBlasProof.  [mcomputes]
    (DenseSpec.v) says: the call's checks pass, and under every distribution of iterations over threads
    and every interleaving there is no invalid access, the loop ends, element (i,j) of the output is the
    stated value and no memory outside the output changes. *)
From Coq Require Import Ring.
From Verif Require Import Base Scalar Spec SumFacts Loops DenseModel Observe CooMiscProof Mem MemSpec ParProof VecModel
  KernelProof VecSpec VecProof DenseBlasModel DenseSpec DenseBlasProof DenseProof.

(** ** C21: transpose *)
Section C21.
Context {F : Type} {SF : Scalar F}.

(** A.transpose(): dimensions exchanged, at(i,j) afterwards is at(j,i) before.  Square and rectangular. *)
Theorem C21_dense_transpose (d : dense F) : dense_ok d -> d_first d = 0 ->
  exists d', dense_transpose d = Ok d' /\ dense_ok d' /\ d_row d' = d_col d /\ d_col d' = d_row d /\
    forall i j, i < d_col d -> j < d_row d -> dense_at d' i j = dense_at d j i.
Proof.
  intros H H0. destruct (@dense_transpose_ok F SF d H H0) as (d' & E & H' & F' & _ & Hr & Hc & Hn).
  exists d'. split; [exact E|]. split; [exact H'|]. split; [exact Hr|]. split; [exact Hc|].
  intros i j Hi Hj. rewrite !dense_at_ok by (auto; lia). f_equal. now apply Hn.
Qed.

(** A.transpose(B), A and B different objects; A may have any previous content. *)
Theorem C21_dense_transpose_from (d B : dense F) :
  length (d_val d) = d_alloc d -> d_first d = 0 -> d_nnz d <= d_alloc d -> dense_ok B -> d_first B = 0 ->
  exists d', dense_transpose_from d B = Ok d' /\ dense_ok d' /\ dense_plain d' /\
    d_row d' = d_col B /\ d_col d' = d_row B /\
    forall i j, i < d_col B -> j < d_row B -> dense_at d' i j = dense_at B j i.
Proof.
  intros H1 H2 H3 HB HB0. destruct (@dense_transpose_from_ok F SF d B H1 H2 H3 HB HB0) as (d' & E & H' & F' & Hr & Hc & Hn).
  exists d'. split; [exact E|]. split; [exact H'|]. split; [exact F'|]. split; [exact Hr|]. split; [exact Hc|].
  intros i j Hi Hj. rewrite !dense_at_ok by (auto; lia). f_equal. now apply Hn.
Qed.

(** transposing twice gives the original matrix *)
Theorem C21_dense_transpose_twice (d : dense F) : dense_ok d -> d_first d = 0 ->
  exists d1 d2, dense_transpose d = Ok d1 /\ dense_transpose d1 = Ok d2 /\
    d_row d2 = d_row d /\ d_col d2 = d_col d /\
    forall i j, i < d_row d -> j < d_col d -> dense_at d2 i j = dense_at d i j.
Proof.
  intros H H0. destruct (@dense_transpose_ok F SF d H H0) as (d1 & E1 & H1 & F1 & _ & R1 & C1 & N1).
  destruct (@dense_transpose_ok F SF d1 H1 F1) as (d2 & E2 & H2 & F2 & _ & R2 & C2 & N2).
  exists d1, d2. split; [exact E1|]. split; [exact E2|]. split; [congruence|]. split; [congruence|].
  intros i j Hi Hj. rewrite !dense_at_ok by (auto; lia). f_equal. rewrite N2, N1 by lia. reflexivity.
Qed.

(** The OpenMP loops inside transpose: for every schedule, the loop for row i exchanges (i,j) and (j,i)
    for all j > i and touches nothing else ... *)
Theorem C21_square_loop_schedules (d : ptr) (M i : nat) (m : mem F) : i < M -> window m d (M * M) ->
  exists m', par_result (M - (i + 1)) (swap_body d M i) m m' /\
    seq_for (M - (i + 1)) (swap_body d M i) m = Ok m' /\ same_shape m m' /\
    (forall j, i < j < M -> cell m' (padd d (i * M + j)) = cell m (padd d (j * M + i)) /\
                        cell m' (padd d (j * M + i)) = cell m (padd d (i * M + j))) /\
    (forall p, (forall j, i < j < M -> p <> padd d (i * M + j) /\ p <> padd d (j * M + i)) -> cell m' p = cell m p).
Proof. apply swap_loop_par. Qed.

(** ... and the rectangular loop, source and target in different buffers, fills the whole N x M target. *)
Theorem C21_rect_loop_schedules (target source : ptr) (M N : nat) (m : mem F) :
  fst target <> fst source -> window m source (M * N) -> window m target (M * N) ->
  exists m', par_result (M * N) (transpose_body target source M N) m m' /\
    seq_for (M * N) (transpose_body target source M N) m = Ok m' /\ same_shape m m' /\
    (forall i j, i < N -> j < M -> cell m' (padd target (M * i + j)) = cell m (padd source (N * j + i))) /\
    (forall p, (forall k, k < M * N -> padd target k <> p) -> cell m' p = cell m p).
Proof.
  intros Hne Hs Ht.
  destruct (@gather_ok F SF (M * N) (fun n => padd source (N * (n mod M) + n / M)) target true m) as (m' & (_ & H1) & H2 & H3 & H4 & H5).
  - reflexivity.
  - intros n Hn. destruct (div_mod_idx M N Hn). apply Hs. nia.
  - exact Ht.
  - intros k l _ _ E. apply Hne. unfold padd in E. now inversion E.
  - exists m'. unfold transpose_body. cbn [kernel_seq k_n k_body k_assert assert_ bind a_ptr a_len] in *.
    split; [exact H1|]. split; [exact H2|]. split; [exact H3|]. split; [|exact H5].
    intros i j Hi Hj. rewrite H4 by nia. rewrite mod_idx, div_idx by lia. reflexivity.
Qed.
End C21.
Print Assumptions C21_dense_transpose.
Print Assumptions C21_dense_transpose_from.
Print Assumptions C21_dense_transpose_twice.
Print Assumptions C21_square_loop_schedules.
Print Assumptions C21_rect_loop_schedules.

(** False of the code: a Dense object at a non-zero offset (set_first) is transposed at the wrong place. *)
Theorem C21_offset_refuted :
  exists d d' : dense Z, dense_ok d /\ d_first d = 1 /\ dense_transpose d = Ok d' /\
    d_row d' = d_col d /\ d_col d' = d_row d /\ dense_at d' 1 0 <> dense_at d 0 1.
Proof.
  exists (mkDense 2 2 [9;1;2;3;4]%Z 1 4 5 true), (mkDense 2 2 [9;2;1;3;4]%Z 1 4 5 true).
  split; [vm_compute; repeat split; lia|]. split; [reflexivity|]. split; [vm_compute; reflexivity|].
  split; [reflexivity|]. split; [reflexivity|]. vm_compute. discriminate.
Qed.
Print Assumptions C21_offset_refuted.

(** False of the code: A.transpose(A) *)
Theorem C21_alias_refuted :
  exists d d' : dense Z, dense_ok d /\ dense_plain d /\ dense_transpose_self d = Ok d' /\
    dense_at d' 0 1 = dense_at d 1 0 /\ dense_at d' 1 0 <> dense_at d 0 1.
Proof.
  exists (mkDense 2 2 [1;2;3;4]%Z 0 4 4 true), (mkDense 2 2 [1;3;3;4]%Z 0 4 4 true).
  split; [vm_compute; repeat split; lia|]. split; [split; reflexivity|]. split; [vm_compute; reflexivity|].
  split; [vm_compute; reflexivity|]. vm_compute. discriminate.
Qed.
Print Assumptions C21_alias_refuted.

Example C21_example :
  exists d d', dense_of_array 2 3 [1;2;3;4;5;6]%Z = Ok d /\ dense_ok d /\ d_first d = 0 /\
    dense_transpose d = Ok d' /\ map (fun ij => dense_at d' (fst ij) (snd ij)) [(0,0);(0,1);(1,0);(1,1);(2,0);(2,1)]
      = map Ok [1;4;2;5;3;6]%Z.
Proof.
  eexists _, _. split; [vm_compute; reflexivity|]. split; [vm_compute; repeat split; lia|].
  split; [reflexivity|]. split; vm_compute; reflexivity.
Qed.

(** ** C22: element access and reshape *)
Section C22.
Context {F : Type} {SF : Scalar F}.

(** insert changes exactly one element, also through a Dense at an offset, and keeps the shape *)
Theorem C22_dense_insert (d : dense F) (i j : nat) (v : F) : dense_ok d -> i < d_row d -> j < d_col d ->
  exists d', dense_insert d i j v = Ok d' /\ dense_ok d' /\ d_row d' = d_row d /\ d_col d' = d_col d /\
    (forall a b, a < d_row d -> b < d_col d ->
       dense_at d' a b = if (a =? i) && (b =? j) then Ok v else dense_at d a b) /\
    (forall k, k < d_first d \/ d_first d + d_nnz d <= k -> nth k (d_val d') f0 = nth k (d_val d) f0).
Proof.
  intros H Hi Hj. pose proof H as (H1 & H2 & H3). pose proof (rc_lt Hi Hj) as HB.
  unfold dense_insert, dense_insert1. rewrite (proj2 (Nat.ltb_lt _ _) Hi), (proj2 (Nat.ltb_lt _ _) Hj). cbn [assert_ bind].
  destruct (Nat.ltb_spec (d_col d * i + j) (d_nnz d)); [|lia].
  destruct (Nat.ltb_spec (d_first d + (d_col d * i + j)) (d_alloc d)); [|lia].
  cbn [assert_ bind]. rewrite wr_lt by lia. cbn [bind]. eexists. split; [reflexivity|].
  assert (H' : dense_ok (d_set_val d (upd (d_val d) (d_first d + (d_col d * i + j)) v))).
  { unfold dense_ok, d_set_val. cbn. rewrite upd_length. auto. }
  split; [exact H'|]. split; [reflexivity|]. split; [reflexivity|]. split.
  - intros a b Ha Hb. rewrite !dense_at_ok by (auto; exact H' || (cbn; auto)).
    unfold dense_fn, d_set_val. cbn [d_val d_col d_first]. rewrite nth_upd.
    pose proof (rc_lt Ha Hb).
    destruct (Nat.ltb_spec (d_first d + (d_col d * i + j)) (length (d_val d))); [|lia]. rewrite andb_true_r.
    destruct (Nat.eqb_spec (d_first d + (d_col d * i + j)) (d_first d + (d_col d * a + b))) as [E|E].
    + destruct (@rc_inj (d_col d) i j a b) as [-> ->]; auto; [lia|]. now rewrite !Nat.eqb_refl.
    + destruct (Nat.eqb_spec a i), (Nat.eqb_spec b j); cbn [andb]; auto. subst. lia.
  - intros k Hk. unfold d_set_val. cbn [d_val]. rewrite nth_upd.
    destruct (Nat.eqb_spec (d_first d + (d_col d * i + j)) k); cbn [andb]; auto. lia.
Qed.

(** at and insert outside the matrix are rejected *)
Theorem C22_dense_bounds (d : dense F) (i j : nat) (v : F) : d_row d <= i \/ d_col d <= j ->
  dense_at d i j = Abort /\ dense_insert d i j v = Abort.
Proof.
  intros H. unfold dense_at, dense_insert.
  destruct (Nat.ltb_spec i (d_row d)); cbn [assert_ bind]; auto.
  destruct (Nat.ltb_spec j (d_col d)); cbn [assert_ bind]; auto. lia.
Qed.

(** reshape succeeds iff the element count matches; the row-major sequence is kept *)
Theorem C22_dense_reshape (d : dense F) (r c : nat) : dense_ok d ->
  (r * c = d_row d * d_col d ->
     exists d', dense_reshape d r c = Ok d' /\ dense_ok d' /\ d_row d' = r /\ d_col d' = c /\
       (forall k, k < r * c -> dense_at1 d' k = dense_at1 d k) /\
       (forall i j, i < r -> j < c -> dense_at d' i j = dense_at1 d (c * i + j))) /\
  (r * c <> d_row d * d_col d -> dense_reshape d r c = Throw).
Proof.
  intros (H1 & H2 & H3). unfold dense_reshape. split; intros E.
  - rewrite E, Nat.eqb_refl. cbn [require_ bind]. eexists. split; [reflexivity|].
    unfold dense_ok, d_set_rc, dense_at, dense_at1. cbn [d_row d_col d_val d_first d_nnz d_alloc].
    split; [repeat split; auto; lia|]. split; auto. split; auto. split; auto.
    intros i j Hi Hj. rewrite (proj2 (Nat.ltb_lt _ _) Hi), (proj2 (Nat.ltb_lt _ _) Hj). reflexivity.
  - destruct (Nat.eqb_spec (d_row d * d_col d) (r * c)); [lia|reflexivity].
Qed.
End C22.
Print Assumptions C22_dense_insert.
Print Assumptions C22_dense_bounds.
Print Assumptions C22_dense_reshape.

Example C22_example :
  exists d d1 d2, dense_of_array 2 3 [1;2;3;4;5;6]%Z = Ok d /\ dense_ok d /\ dense_insert d 1 2 7%Z = Ok d1 /\
    dense_at d1 1 2 = Ok 7%Z /\ dense_reshape d1 3 2 = Ok d2 /\ dense_at d2 1 1 = Ok 4%Z /\ dense_reshape d1 2 2 = Throw.
Proof.
  eexists _, _, _. split; [vm_compute; reflexivity|]. split; [vm_compute; repeat split; lia|].
  repeat (split; [vm_compute; reflexivity|]). vm_compute; reflexivity.
Qed.

(** ** C41: row / column broadcast *)
Section C41.
Context {F : Type} {SF : Scalar F}.
Local Open Scope F_scope.

(** the hypotheses shared by the theorems below: elements exist, C has A's dimensions, C is A itself or
    disjoint from A, x does not overlap C *)
Definition bc_ok (m : mem F) (A C : marg) (x : arg) : Prop :=
  same_dims A C /\ mat_ok m A /\ mat_ok m C /\ arg_ok m x /\ msame_or_apart A C /\ vapart x C.

Theorem C41_times_row (A C : marg) (x : arg) (m : mem F) : bc_ok m A C x -> a_len x = g_col A ->
  mcomputes (k_times_row A x C) m C (fun i j => mel m A i j * el m x j).
Proof.
  intros (H1 & H2 & H3 & H4 & H5 & H6) HL. apply (@broadcast_grid F SF fmul A C x (fun _ j => j)); auto.
  - intros i j Hi Hj. lia.
  - now rewrite (msame_true H1), HL, Nat.eqb_refl.
Qed.
Theorem C41_times_col (A C : marg) (x : arg) (m : mem F) : bc_ok m A C x -> a_len x = g_row A ->
  mcomputes (k_times_col A x C) m C (fun i j => mel m A i j * el m x i).
Proof.
  intros (H1 & H2 & H3 & H4 & H5 & H6) HL. apply (@broadcast_grid F SF fmul A C x (fun i _ => i)); auto.
  - intros i j Hi Hj. lia.
  - now rewrite (msame_true H1), HL, Nat.eqb_refl.
Qed.
Theorem C41_adds_row (A C : marg) (x : arg) (m : mem F) : bc_ok m A C x -> a_len x = g_col A ->
  mcomputes (k_adds_row A x C) m C (fun i j => mel m A i j + el m x j).
Proof.
  intros (H1 & H2 & H3 & H4 & H5 & H6) HL. apply (@broadcast_grid F SF fadd A C x (fun _ j => j)); auto.
  - intros i j Hi Hj. lia.
  - now rewrite (msame_true H1), HL, Nat.eqb_refl.
Qed.
Theorem C41_adds_col (A C : marg) (x : arg) (m : mem F) : bc_ok m A C x -> a_len x = g_row A ->
  mcomputes (k_adds_col A x C) m C (fun i j => mel m A i j + el m x i).
Proof.
  intros (H1 & H2 & H3 & H4 & H5 & H6) HL. apply (@broadcast_grid F SF fadd A C x (fun i _ => i)); auto.
  - intros i j Hi Hj. lia.
  - now rewrite (msame_true H1), HL, Nat.eqb_refl.
Qed.
(** one row / one column: all other elements of C stay as they are *)
Theorem C41_times_row_line (A C : marg) (num : nat) (x : arg) (m : mem F) :
  bc_ok m A C x -> a_len x = g_col A -> (num < g_row A)%nat ->
  mcomputes (k_times_row_line A num x C) m C (fun i j => if i =? num then mel m A i j * el m x j else mel m C i j).
Proof. intros (H1 & H2 & H3 & H4 & H5 & H6) HL Hn. now apply row_line_ok. Qed.
Theorem C41_times_col_line (A C : marg) (num : nat) (x : arg) (m : mem F) :
  bc_ok m A C x -> a_len x = g_row A -> (num < g_col A)%nat ->
  mcomputes (k_times_col_line A num x C) m C (fun i j => if j =? num then mel m A i j * el m x i else mel m C i j).
Proof. intros (H1 & H2 & H3 & H4 & H5 & H6) HL Hn. now apply col_line_ok. Qed.
Theorem C41_adds_row_line (A C : marg) (num : nat) (x : arg) (m : mem F) :
  bc_ok m A C x -> a_len x = g_col A -> (num < g_row A)%nat ->
  mcomputes (k_adds_row_line A num x C) m C (fun i j => if i =? num then mel m A i j + el m x j else mel m C i j).
Proof. intros (H1 & H2 & H3 & H4 & H5 & H6) HL Hn. now apply row_line_ok. Qed.
Theorem C41_adds_col_line (A C : marg) (num : nat) (x : arg) (m : mem F) :
  bc_ok m A C x -> a_len x = g_row A -> (num < g_col A)%nat ->
  mcomputes (k_adds_col_line A num x C) m C (fun i j => if j =? num then mel m A i j + el m x i else mel m C i j).
Proof. intros (H1 & H2 & H3 & H4 & H5 & H6) HL Hn. now apply col_line_ok. Qed.

(** wrong sizes abort *)
Theorem C41_sizes (A C : marg) (num : nat) (x : arg) (m : mem F) :
  (~ same_dims A C \/ a_len x <> g_col A ->
     kernel_seq (k_times_row A x C) m = Abort /\ kernel_seq (k_adds_row A x C) m = Abort /\
     kernel_seq (k_times_row_line A num x C) m = Abort /\ kernel_seq (k_adds_row_line A num x C) m = Abort) /\
  (~ same_dims A C \/ a_len x <> g_row A ->
     kernel_seq (k_times_col A x C) m = Abort /\ kernel_seq (k_adds_col A x C) m = Abort /\
     kernel_seq (k_times_col_line A num x C) m = Abort /\ kernel_seq (k_adds_col_line A num x C) m = Abort).
Proof.
  split; (intros [H|H];
   unfold kernel_seq, k_times_row, k_adds_row, k_times_row_line, k_adds_row_line, k_row, k_row_line,
     k_times_col, k_adds_col, k_times_col_line, k_adds_col_line, k_col, k_col_line; cbn [k_assert];
   [rewrite (msame_false H)
   |match goal with |- context [?n =? a_len x] => destruct (Nat.eqb_spec n (a_len x)) end; [congruence|];
    rewrite ?andb_false_r]; cbn [andb assert_ bind]; auto).
Qed.
End C41.
Print Assumptions C41_times_row.
Print Assumptions C41_times_col.
Print Assumptions C41_adds_row.
Print Assumptions C41_adds_col.
Print Assumptions C41_times_row_line.
Print Assumptions C41_times_col_line.
Print Assumptions C41_adds_row_line.
Print Assumptions C41_adds_col_line.
Print Assumptions C41_sizes.

(** False of the code: a row (column) number equal to the number of rows (columns) passes the check; for a
    row the memory behind the matrix is accessed, for a column neighbouring elements change. *)
Theorem C41_line_edge_refuted :
  (exists (A : marg) (x : arg) (m : mem Z), mat_ok m A /\ arg_ok m x /\ a_len x = g_col A /\
     k_assert (k_times_row_line (F:=Z) A (g_row A) x A) = true /\ kernel_seq (k_times_row_line A (g_row A) x A) m = UB) /\
  (exists (A : marg) (x : arg) (m m' : mem Z), mat_ok m A /\ arg_ok m x /\ a_len x = g_row A /\
     vapart x A /\ window m (g_begin A) 5 /\
     kernel_seq (k_times_col_line A (g_col A) x A) m = Ok m' /\ mel m' A 1 0 <> mel m A 1 0).
Proof.
  split.
  - exists (mkMarg (0,0) 0 2 2), (mkArg (1,0) 2), [[1;2;3;4]%Z; [5;6]%Z].
    split; [intros [|[|i]] [|[|j]] Hi Hj; cbn in *; unfold valid; cbn; lia|].
    split; [intros [|[|i]] Hi; cbn in *; unfold valid; cbn; lia|].
    split; [reflexivity|]. split; vm_compute; reflexivity.
  - exists (mkMarg (0,0) 0 2 2), (mkArg (1,0) 2), [[1;2;3;4;8]%Z; [5;6]%Z], [[1;2;15;4;48]%Z; [5;6]%Z].
    split; [intros [|[|i]] [|[|j]] Hi Hj; cbn in *; unfold valid; cbn; lia|].
    split; [intros [|[|i]] Hi; cbn in *; unfold valid; cbn; lia|].
    split; [reflexivity|]. split; [intros k i j _ _ _ E; vm_compute in E; discriminate|].
    split; [intros i Hi; unfold valid; cbn in *; lia|].
    split; [vm_compute; reflexivity|]. vm_compute. discriminate.
Qed.
Print Assumptions C41_line_edge_refuted.

Example C41_example :
  let A := mkMarg (0,0) 1 2 2 in let x := mkArg (1,0) 2 in let m := [[9;1;2;3;4]%Z; [5;6]%Z] in
  bc_ok m A A x /\ kernel_seq (k_times_row A x A) m = Ok [[9;5;12;15;24]%Z; [5;6]%Z] /\
  kernel_seq (k_times_col A x A) m = Ok [[9;5;10;18;24]%Z; [5;6]%Z] /\
  kernel_seq (k_adds_col_line A 1 x A) m = Ok [[9;1;7;3;10]%Z; [5;6]%Z].
Proof.
  cbn zeta. split.
  - split; [apply sd_refl|]. split; [intros [|[|i]] [|[|j]] Hi Hj; cbn in *; unfold valid; cbn; lia|].
    split; [intros [|[|i]] [|[|j]] Hi Hj; cbn in *; unfold valid; cbn; lia|].
    split; [intros [|[|i]] Hi; cbn in *; unfold valid; cbn; lia|]. split; [apply mself|].
    intros k i j _ _ _ E. vm_compute in E. discriminate.
  - split; [|split]; vm_compute; reflexivity.
Qed.

(** ** C20 (Dense part): diagonal operations; [op] is +, -, *, / *)
Section C20.
Context {F : Type} {SF : Scalar F}.
Theorem C20_dense_diag_op (op : F -> F -> F) (A : marg) (alpha : F) (x : arg) (m : mem F) :
  g_first A = 0 -> mat_ok m A -> arg_ok m x -> a_len x = Nat.min (g_row A) (g_col A) -> vapart x A ->
  mcomputes (k_diag_s op A alpha) m A (fun i j => if i =? j then op (mel m A i j) alpha else mel m A i j) /\
  mcomputes (k_diag_v op A x) m A (fun i j => if i =? j then op (mel m A i j) (el m x i) else mel m A i j).
Proof. intros. split; [now apply diag_s_ok|now apply diag_v_ok]. Qed.
Theorem C20_dense_diag_sizes (op : F -> F -> F) (A : marg) (x : arg) (m : mem F) :
  a_len x <> Nat.min (g_row A) (g_col A) -> kernel_seq (k_diag_v op A x) m = Abort.
Proof.
  intros H. unfold kernel_seq, k_diag_v. cbn [k_assert]. rewrite diag_len_min.
  destruct (Nat.eqb_spec (Nat.min (g_row A) (g_col A)) (a_len x)); [congruence|reflexivity].
Qed.
End C20.
Print Assumptions C20_dense_diag_op.
Print Assumptions C20_dense_diag_sizes.

(** False of the code for a view_Dense at a non-zero offset: the wrong elements change, some of them
    outside the view. *)
Theorem C20_view_dense_refuted :
  exists (A : marg) (m m' : mem Z), mat_ok m A /\ kernel_seq (k_diag_add A 100%Z) m = Ok m' /\
    mel m' A 0 0 = mel m A 0 0 /\ ~ (forall p, (forall i j, i < g_row A -> j < g_col A -> mslot A i j <> p) -> cell m' p = cell m p).
Proof.
  exists (mkMarg (0,0) 1 2 2), [[1;2;3;4;5]%Z], [[101;2;3;104;5]%Z].
  split; [intros [|[|i]] [|[|j]] Hi Hj; cbn in *; unfold valid; cbn; lia|].
  split; [vm_compute; reflexivity|]. split; [vm_compute; reflexivity|].
  intros H. specialize (H (0,0)). vm_compute in H. 
  assert (E : 101%Z = 1%Z); [|discriminate E]. apply H. intros [|[|i]] [|[|j]] Hi Hj; try lia; discriminate.
Qed.
Print Assumptions C20_view_dense_refuted.

Example C20_dense_example :
  let A := mkMarg (0,0) 0 2 3 in let x := mkArg (1,0) 2 in let m := [[1;2;3;4;5;6]%Z; [10;20]%Z] in
  mat_ok m A /\ arg_ok m x /\ a_len x = Nat.min (g_row A) (g_col A) /\ vapart x A /\
  kernel_seq (k_diag_sub_v A x) m = Ok [[-9;2;3;4;-15;6]%Z; [10;20]%Z].
Proof.
  cbn zeta. split; [intros [|[|i]] [|[|[|j]]] Hi Hj; cbn in *; unfold valid; cbn; lia|].
  split; [intros [|[|i]] Hi; cbn in *; unfold valid; cbn; lia|]. split; [reflexivity|].
  split; [intros k i j _ _ _ E; vm_compute in E; discriminate|]. vm_compute. reflexivity.
Qed.

(** ** C46: matrix-vector and matrix-matrix product.  cblas gemv/gemm are trusted (see DenseBlasModel);
    the theorem is about the wiring (dimensions, leading dimensions, offsets, transposition flag). *)
Section C46.
Context {F : Type} {SF : Scalar F}.
Hypothesis Hex : exact SF.
Let Hrt : ring_theory f0 f1 fadd fmul fsub fopp (@eq F) := Hex.
Add Ring C46ring : Hrt.
Local Open Scope F_scope.

(** x and A do not overlap the output y *)
Definition mv_apart (A : marg) (x y : arg) : Prop :=
  vapart y A /\ forall j k, (j < a_len x)%nat -> (k < a_len y)%nat -> padd (a_ptr x) j <> padd (a_ptr y) k.

Theorem C46_dense_matvec_ab (alpha beta : F) (A : marg) (x y : arg) (m : mem F) :
  mat_ok m A -> arg_ok m x -> arg_ok m y -> mv_apart A x y ->
  (a_len x = g_col A -> a_len y = g_row A ->
   computes (k_matvec_ab alpha A x beta y false) m y
     (fun i => alpha * mv (g_col A) (mel m A) (el m x) i + beta * el m y i)) /\
  (a_len x = g_row A -> a_len y = g_col A ->
   computes (k_matvec_ab alpha A x beta y true) m y
     (fun i => alpha * mv (g_row A) (fun i j => mel m A j i) (el m x) i + beta * el m y i)).
Proof.
  intros HA Hx Hy [H1 H2]. split; intros HL1 HL2.
  - assert (G : computes (k_matvec_ab alpha A x beta y false) m (mkArg (a_ptr y) (g_row A)) (fun i =>
       alpha * fold_left (fun s j => s + cell m (padd (g_begin A) (i * g_col A + j)) * cell m (padd (a_ptr x) j))
          (seq 0 (g_col A)) 0 + beta * cell m (padd (a_ptr y) i))).
    { unfold k_matvec_ab, cblas_gemv.
      apply (@gemv_ok F SF (g_row A) (g_col A) (fun i j => padd (g_begin A) (i * g_col A + j)) (a_ptr x) (a_ptr y)).
      - now rewrite HL1, HL2, !Nat.eqb_refl.
      - rewrite <- HL2. exact Hy.
      - rewrite <- HL1. exact Hx.
      - intros i j Hi Hj. rewrite slot_comm. now apply HA.
      - intros i j k Hi Hj Hk. rewrite slot_comm. intros E. symmetry in E. apply H1 in E; auto. lia.
      - intros j k Hj Hk. apply H2; lia. }
    destruct G as (m' & G1 & G2 & (G3 & G4 & G5)). exists m'. split; [exact G1|]. split; [exact G2|].
    unfold written in *. cbn [a_ptr a_len] in *. rewrite HL2. split; [exact G3|]. split; [|exact G5].
    intros i Hi. rewrite G4 by exact Hi. rewrite fold_seq_sum by exact Hex. unfold mv.
    rewrite (@sum_ext F SF (g_col A) _ (fun j => mel m A i j * el m x j)).
    + unfold el. ring.
    + intros j Hj. rewrite slot_comm. reflexivity.
  - assert (G : computes (k_matvec_ab alpha A x beta y true) m (mkArg (a_ptr y) (g_col A)) (fun i =>
       alpha * fold_left (fun s j => s + cell m (padd (g_begin A) (j * g_col A + i)) * cell m (padd (a_ptr x) j))
          (seq 0 (g_row A)) 0 + beta * cell m (padd (a_ptr y) i))).
    { unfold k_matvec_ab, cblas_gemv.
      apply (@gemv_ok F SF (g_col A) (g_row A) (fun i j => padd (g_begin A) (j * g_col A + i)) (a_ptr x) (a_ptr y)).
      - now rewrite HL1, HL2, !Nat.eqb_refl.
      - rewrite <- HL2. exact Hy.
      - rewrite <- HL1. exact Hx.
      - intros i j Hi Hj. rewrite slot_comm. now apply HA.
      - intros i j k Hi Hj Hk. rewrite slot_comm. intros E. symmetry in E. apply H1 in E; auto. lia.
      - intros j k Hj Hk. apply H2; lia. }
    destruct G as (m' & G1 & G2 & (G3 & G4 & G5)). exists m'. split; [exact G1|]. split; [exact G2|].
    unfold written in *. cbn [a_ptr a_len] in *. rewrite HL2. split; [exact G3|]. split; [|exact G5].
    intros i Hi. rewrite G4 by exact Hi. rewrite fold_seq_sum by exact Hex. unfold mv.
    rewrite (@sum_ext F SF (g_row A) _ (fun j => mel m A j i * el m x j)).
    + unfold el. ring.
    + intros j Hj. rewrite slot_comm. reflexivity.
Qed.

(** y = A x and y = A^T x *)
Theorem C46_dense_matvec (A : marg) (x y : arg) (m : mem F) :
  mat_ok m A -> arg_ok m x -> arg_ok m y -> mv_apart A x y ->
  (a_len x = g_col A -> a_len y = g_row A ->
   computes (k_matvec A x y) m y (mv (g_col A) (mel m A) (el m x))) /\
  (a_len x = g_row A -> a_len y = g_col A ->
   computes (k_matvec_T A x y) m y (mv (g_row A) (fun i j => mel m A j i) (el m x))).
Proof.
  intros HA Hx Hy Ha. destruct (@C46_dense_matvec_ab 1 0 A x y m HA Hx Hy Ha) as [G1 G2]. split; intros HL1 HL2.
  - destruct (G1 HL1 HL2) as (m' & K1 & K2 & K3 & K4 & K5). exists m'. split; [exact K1|]. split; [exact K2|].
    split; [exact K3|]. split; [|exact K5]. intros i Hi. rewrite K4 by auto. ring.
  - destruct (G2 HL1 HL2) as (m' & K1 & K2 & K3 & K4 & K5). exists m'. split; [exact K1|]. split; [exact K2|].
    split; [exact K3|]. split; [|exact K5]. intros i Hi. rewrite K4 by auto. ring.
Qed.

(** C = a A B + b C *)
Theorem C46_dense_matmul_ab (a b : F) (A B C : marg) (m : mem F) :
  g_col A = g_row B -> g_row A = g_row C -> g_col B = g_col C ->
  mat_ok m A -> mat_ok m B -> mat_ok m C -> mapart A C -> mapart B C ->
  mcomputes (k_matmul_ab a A B b C) m C (fun i j => a * mm (g_col A) (mel m A) (mel m B) i j + b * mel m C i j).
Proof.
  intros Hk Hr Hc HA HB HC HAC HBC.
  destruct (@gemm_ok F SF (g_col A) a b A B C m eq_refl (eq_sym Hk) Hr Hc HA HB HC HAC HBC) as (m' & K1 & K2 & K3 & K4 & K5).
  exists m'. split; [exact K1|]. split; [exact K2|]. split; [exact K3|]. split; [|exact K5].
  intros i j Hi Hj. rewrite K4 by auto. rewrite fold_seq_sum by exact Hex. unfold mm. ring.
Qed.
Theorem C46_dense_matmul (A B C : marg) (m : mem F) :
  g_col A = g_row B -> g_row A = g_row C -> g_col B = g_col C ->
  mat_ok m A -> mat_ok m B -> mat_ok m C -> mapart A C -> mapart B C ->
  mcomputes (k_matmul A B C) m C (mm (g_col A) (mel m A) (mel m B)).
Proof.
  intros Hk Hr Hc HA HB HC HAC HBC.
  destruct (@C46_dense_matmul_ab 1 0 A B C m Hk Hr Hc HA HB HC HAC HBC) as (m' & K1 & K2 & K3 & K4 & K5).
  exists m'. split; [exact K1|]. split; [exact K2|]. split; [exact K3|]. split; [|exact K5].
  intros i j Hi Hj. rewrite K4 by auto. ring.
Qed.
End C46.
(** sizes that do not fit abort *)
Theorem C46_dense_sizes {F} {SF : Scalar F} (a b : F) (A B C : marg) (x y : arg) (m : mem F) :
  (a_len x <> g_col A \/ a_len y <> g_row A -> kernel_seq (k_matvec_ab a A x b y false) m = Abort) /\
  (a_len x <> g_row A \/ a_len y <> g_col A -> kernel_seq (k_matvec_ab a A x b y true) m = Abort) /\
  (g_col A <> g_row B \/ g_row A <> g_row C \/ g_col B <> g_col C -> kernel_seq (k_matmul_ab a A B b C) m = Abort).
Proof.
  unfold kernel_seq, k_matvec_ab, k_matmul_ab, cblas_gemv, cblas_gemm. cbn [k_assert].
  repeat match goal with |- context [?p =? ?q] => destruct (Nat.eqb_spec p q) end; cbn [andb assert_ bind];
    (split; [|split]); intros H; auto; exfalso; intuition congruence.
Qed.
Print Assumptions C46_dense_matvec_ab.
Print Assumptions C46_dense_matvec.
Print Assumptions C46_dense_matmul_ab.
Print Assumptions C46_dense_matmul.
Print Assumptions C46_dense_sizes.

Example C46_example :
  let A := mkMarg (0,0) 0 2 3 in let B := mkMarg (1,0) 0 3 2 in let C := mkMarg (2,0) 0 2 2 in
  let x := mkArg (3,0) 3 in let y := mkArg (4,0) 2 in
  let m := [[1;2;3;4;5;6]; [1;0;0;1;1;1]; [0;0;0;0]; [1;1;2]; [0;0]]%Z in
  exact Zscalar /\ mat_ok m A /\ mat_ok m B /\ mat_ok m C /\ mapart A C /\ mapart B C /\ arg_ok m x /\ arg_ok m y /\
  mv_apart A x y /\
  kernel_seq (k_matvec A x y) m = Ok [[1;2;3;4;5;6]; [1;0;0;1;1;1]; [0;0;0;0]; [1;1;2]; [9;21]]%Z /\
  kernel_seq (k_matmul A B C) m = Ok [[1;2;3;4;5;6]; [1;0;0;1;1;1]; [4;5;10;11]; [1;1;2]; [0;0]]%Z.
Proof.
  cbn zeta. split; [exact Z_exact|].
  split; [intros [|[|i]] [|[|[|j]]] Hi Hj; cbn in *; unfold valid; cbn; lia|].
  split; [intros [|[|[|i]]] [|[|j]] Hi Hj; cbn in *; unfold valid; cbn; lia|].
  split; [intros [|[|i]] [|[|j]] Hi Hj; cbn in *; unfold valid; cbn; lia|].
  split; [intros i j k l _ _ _ _ E; vm_compute in E; discriminate|].
  split; [intros i j k l _ _ _ _ E; vm_compute in E; discriminate|].
  split; [intros [|[|[|i]]] Hi; cbn in *; unfold valid; cbn; lia|].
  split; [intros [|[|i]] Hi; cbn in *; unfold valid; cbn; lia|].
  split; [split; [intros k i j _ _ _ E; vm_compute in E; discriminate|intros j k _ _ E; vm_compute in E; discriminate]|].
  split; vm_compute; reflexivity.
Qed.

(** ** C47: element-wise operations on whole matrices (Dense, view_Dense), any scalar type, bit-exact *)
Section C47.
Context {F : Type} {SF : Scalar F}.
Local Open Scope F_scope.
Theorem C47_matadd (A B C : marg) (m : mem F) :
  same_dims A C -> same_dims B C -> mat_ok m A -> mat_ok m B -> mat_ok m C -> msame_or_apart A C -> msame_or_apart B C ->
  mcomputes (k_matadd A B C) m C (fun i j => mel m A i j + mel m B i j).
Proof.
  intros H1 H2 **. apply km2; auto using same_dims_nnz.
  rewrite (msame_true H1), msame_true; auto. destruct H1, H2. split; congruence.
Qed.
Theorem C47_matsub (A B C : marg) (m : mem F) :
  same_dims A C -> same_dims B C -> mat_ok m A -> mat_ok m B -> mat_ok m C -> msame_or_apart A C -> msame_or_apart B C ->
  mcomputes (k_matsub A B C) m C (fun i j => mel m A i j - mel m B i j).
Proof.
  intros H1 H2 **. apply km2; auto using same_dims_nnz.
  rewrite (msame_true H1), msame_true; auto. destruct H1, H2. split; congruence.
Qed.
Theorem C47_mscal (alpha : F) (A : marg) (m : mem F) : mat_ok m A ->
  mcomputes (k_mscal alpha A) m A (fun i j => mel m A i j * alpha).
Proof. intros H. apply (@km1 F SF true _ (fun x => x * alpha)); auto using sd_refl, mself. Qed.
Theorem C47_times_scalar (alpha : F) (A C : marg) (m : mem F) :
  same_dims A C -> mat_ok m A -> mat_ok m C -> msame_or_apart A C ->
  mcomputes (k_mtimes alpha A C) m C (fun i j => mel m A i j * alpha).
Proof. intros H1 **. apply (@km1 F SF _ _ (fun x => x * alpha)); auto using same_dims_nnz, msame_true. Qed.
Theorem C47_adds_scalar (alpha : F) (A C : marg) (m : mem F) :
  same_dims A C -> mat_ok m A -> mat_ok m C -> msame_or_apart A C ->
  mcomputes (k_madds alpha A C) m C (fun i j => mel m A i j + alpha).
Proof. intros H1 **. apply (@km1 F SF _ _ (fun x => x + alpha)); auto using same_dims_nnz, msame_true. Qed.
Theorem C47_copy (A C : marg) (m : mem F) :
  same_dims A C -> mat_ok m A -> mat_ok m C -> msame_or_apart A C ->
  mcomputes (k_mcopy A C) m C (fun i j => mel m A i j).
Proof. intros H1 **. apply (@km1 F SF _ _ (fun x => x)); auto using same_dims_nnz, msame_true. Qed.
Theorem C47_fill (v : F) (A : marg) (m : mem F) : mat_ok m A -> mcomputes (k_mfill v A) m A (fun _ _ => v).
Proof. intros H. now apply km0. Qed.
Theorem C47_sizes (alpha : F) (A B C : marg) (m : mem F) :
  (~ same_dims A C -> kernel_seq (k_mtimes alpha A C) m = Abort /\ kernel_seq (k_madds alpha A C) m = Abort /\
     kernel_seq (k_mcopy A C) m = Abort) /\
  (~ same_dims A B \/ ~ same_dims A C -> kernel_seq (k_matadd A B C) m = Abort /\ kernel_seq (k_matsub A B C) m = Abort).
Proof.
  unfold kernel_seq, k_mtimes, k_madds, k_mcopy, k_matadd, k_matsub. cbn [k_assert]. split.
  - intros H. rewrite (msame_false H). auto.
  - intros [H|H]; rewrite (msame_false H); rewrite ?andb_false_r; auto.
Qed.
End C47.
Print Assumptions C47_matadd.
Print Assumptions C47_matsub.
Print Assumptions C47_mscal.
Print Assumptions C47_times_scalar.
Print Assumptions C47_adds_scalar.
Print Assumptions C47_copy.
Print Assumptions C47_fill.
Print Assumptions C47_sizes.

Example C47_example :
  let A := mkMarg (0,0) 0 2 2 in let B := mkMarg (0,0) 4 2 2 in let m := [[1;2;3;4;10;20;30;40]]%Z in
  mat_ok m A /\ mat_ok m B /\ msame_or_apart A B /\ msame_or_apart B B /\
  kernel_seq (k_matadd A B B) m = Ok [[1;2;3;4;11;22;33;44]]%Z.
Proof.
  cbn zeta. split; [intros [|[|i]] [|[|j]] Hi Hj; cbn in *; unfold valid; cbn; lia|].
  split; [intros [|[|i]] [|[|j]] Hi Hj; cbn in *; unfold valid; cbn; lia|].
  split.
  - right. intros i j k l Hi Hj Hk Hl E. cbn in *. unfold mslot, g_begin, padd in E. cbn in E. inversion E. lia.
  - split; [apply mself|]. vm_compute. reflexivity.
Qed.

(** ** C48: diag/row/col of a Dense matrix into a vector *)
Section C48.
Context {F : Type} {SF : Scalar F}.
(** [x] is an owning vector (or a view at offset 0), A a Dense at offset 0 *)
Theorem C48_dense_getvec (A : marg) (x : arg) (m : mem F) :
  g_first A = 0 -> mat_ok m A -> arg_ok m x -> vapart x A ->
  (a_len x = Nat.min (g_row A) (g_col A) -> computes (k_getdiag A (a_ptr x) (a_len x)) m x (fun i => mel m A i i)) /\
  (forall r, r < g_row A -> a_len x = g_col A -> computes (k_getrow A r (a_ptr x) (a_len x)) m x (fun j => mel m A r j)) /\
  (forall c, c < g_col A -> a_len x = g_row A -> computes (k_getcol A c (a_ptr x) (a_len x)) m x (fun i => mel m A i c)).
Proof.
  intros H0 HA Hx Hv. unfold k_getdiag, k_getrow, k_getcol. rewrite (data_begin A H0).
  destruct x as [p n]. cbn [a_ptr a_len] in *. unfold arg_ok in Hx. cbn [a_ptr a_len] in Hx. split; [|split].
  - intros E. rewrite E in *.
    apply (@gather_ok F SF (Nat.min (g_row A) (g_col A)) (fun i => padd (g_begin A) (g_col A * i + i))).
    + apply Nat.eqb_refl.
    + intros k Hk. apply HA; lia.
    + exact Hx.
    + intros k l Hk Hl E'. symmetry in E'. apply (Hv l k k) in E'; auto; cbn; lia.
  - intros r Hr E. rewrite E in *.
    assert (G := @gather_ok F SF (g_col A) (fun i => padd (g_begin A) (r * g_col A + i)) p (g_col A =? g_col A) m).
    destruct G as (m' & G1 & G2 & G3 & G4 & G5).
    + apply Nat.eqb_refl.
    + intros k Hk. rewrite slot_comm. now apply HA.
    + exact Hx.
    + intros k l Hk Hl E'. rewrite slot_comm in E'. symmetry in E'. apply (Hv l r k) in E'; auto.
    + exists m'. split; [exact G1|]. split; [exact G2|]. split; [exact G3|]. split; [|exact G5].
      intros i Hi. rewrite G4 by exact Hi. rewrite slot_comm. reflexivity.
  - intros c Hc E. rewrite E in *.
    assert (G := @gather_ok F SF (g_row A) (fun i => padd (g_begin A) (i * g_col A + c)) p (g_row A =? g_row A) m).
    destruct G as (m' & G1 & G2 & G3 & G4 & G5).
    + apply Nat.eqb_refl.
    + intros k Hk. rewrite slot_comm. now apply HA.
    + exact Hx.
    + intros k l Hk Hl E'. rewrite slot_comm in E'. symmetry in E'. apply (Hv l k c) in E'; auto.
    + exists m'. split; [exact G1|]. split; [exact G2|]. split; [exact G3|]. split; [|exact G5].
      intros i Hi. rewrite G4 by exact Hi. rewrite slot_comm. reflexivity.
Qed.
Theorem C48_dense_getvec_sizes (A : marg) (p : ptr) (n r : nat) (m : mem F) :
  (n <> Nat.min (g_row A) (g_col A) -> kernel_seq (k_getdiag A p n) m = Abort) /\
  (n <> g_col A -> kernel_seq (k_getrow A r p n) m = Abort) /\
  (n <> g_row A -> kernel_seq (k_getcol A r p n) m = Abort).
Proof.
  unfold kernel_seq, k_getdiag, k_getrow, k_getcol. cbn [k_assert].
  split; [|split]; intros H; match goal with |- context [?a =? n] => destruct (Nat.eqb_spec a n) end; congruence || reflexivity.
Qed.
End C48.
Print Assumptions C48_dense_getvec.
Print Assumptions C48_dense_getvec_sizes.

(** False of the code: the row number is not checked; and a target view1D at offset s is written at
    offset 0 of its vector (vec.data() is used, not vec.begin()). *)
Theorem C48_dense_getvec_refuted :
  (exists (A : marg) (x : arg) (m : mem Z), mat_ok m A /\ arg_ok m x /\ a_len x = g_col A /\
     k_assert (k_getrow (F:=Z) A (g_row A) (a_ptr x) (a_len x)) = true /\
     kernel_seq (k_getrow A (g_row A) (a_ptr x) (a_len x)) m = UB) /\
  (exists (A : marg) (data : ptr) (s n : nat) (m m' : mem Z), mat_ok m A /\ window m (padd data s) n /\
     n = g_col A /\ kernel_seq (k_getrow A 0 data n) m = Ok m' /\
     cell m' (padd (padd data s) 0) <> mel m A 0 0 /\ cell m' data <> cell m data).
Proof.
  split.
  - exists (mkMarg (0,0) 0 2 2), (mkArg (1,0) 2), [[1;2;3;4]%Z; [5;6]%Z].
    split; [intros [|[|i]] [|[|j]] Hi Hj; cbn in *; unfold valid; cbn; lia|].
    split; [intros [|[|i]] Hi; cbn in *; unfold valid; cbn; lia|].
    split; [reflexivity|]. split; vm_compute; reflexivity.
  - exists (mkMarg (0,0) 0 2 2), (1,0), 2, 2, [[1;2;3;4]%Z; [5;6;7;8]%Z], [[1;2;3;4]%Z; [1;2;7;8]%Z].
    split; [intros [|[|i]] [|[|j]] Hi Hj; cbn in *; unfold valid; cbn; lia|].
    split; [intros [|[|i]] Hi; cbn in *; unfold valid; cbn; lia|].
    split; [reflexivity|]. split; [vm_compute; reflexivity|]. split; vm_compute; discriminate.
Qed.
Print Assumptions C48_dense_getvec_refuted.

Example C48_example :
  let A := mkMarg (0,0) 0 2 3 in let x := mkArg (1,0) 2 in let m := [[1;2;3;4;5;6]%Z; [0;0]%Z] in
  mat_ok m A /\ arg_ok m x /\ vapart x A /\ kernel_seq (k_getdiag A (a_ptr x) 2) m = Ok [[1;2;3;4;5;6]%Z; [1;5]%Z] /\
  kernel_seq (k_getcol A 2 (a_ptr x) 2) m = Ok [[1;2;3;4;5;6]%Z; [3;6]%Z].
Proof.
  cbn zeta. split; [intros [|[|i]] [|[|[|j]]] Hi Hj; cbn in *; unfold valid; cbn; lia|].
  split; [intros [|[|i]] Hi; cbn in *; unfold valid; cbn; lia|].
  split; [intros k i j _ _ _ E; vm_compute in E; discriminate|]. split; vm_compute; reflexivity.
Qed.
