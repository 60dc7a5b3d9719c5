(** * PropertiesTensor: C27, C28, C30, C53, C54. *)
From Coq Require Import Permutation Sorted.
From Verif Require Import Base Scalar Spec Loops DenseModel CooMiscProof TensorModel TensorSpec TensorProof ReshapeProof
  TensorCooProof TensorConvProof.
Set Implicit Arguments.

Lemma nth_error_upd_other {A} (l : list A) i j v : i <> j -> nth_error (upd l j v) i = nth_error l i.
Proof. revert i j; induction l as [|x l IH]; intros [|i] [|j] H; cbn; auto; congruence. Qed.
Lemma nth_error_upd_same {A} (l : list A) i v : i < length l -> nth_error (upd l i v) i = Some v.
Proof. revert i; induction l as [|x l IH]; intros [|i] H; cbn in *; auto; [lia|lia|]. apply IH; lia. Qed.

(** ** C27 positions *)

(** get_index(pos) numbers the positions in row-major order, below the number of elements ... *)
Theorem C27_index_of_position shape pos : inside shape pos ->
  t_index shape pos = Ok (row_major shape pos) /\ row_major shape pos < prod shape.
Proof. intros H. split; [apply t_index_eq; now apply inside_length|now apply row_major_lt]. Qed.
Print Assumptions C27_index_of_position.
(** ... and get_index(flat) is its inverse, both ways *)
Theorem C27_bijection shape :
  (forall pos n, inside shape pos -> t_index shape pos = Ok n -> n < prod shape /\ t_unindex shape n = Ok pos) /\
  (forall n, n < prod shape -> exists pos, t_unindex shape n = Ok pos /\ inside shape pos /\ t_index shape pos = Ok n).
Proof.
  split.
  - intros pos n H E. rewrite t_index_eq in E by now apply inside_length. injection E as <-.
    split; [now apply row_major_lt|now apply t_unindex_row_major].
  - intros n H. destruct (t_unindex_ok _ H) as (pos & E & HI & HR). exists pos. split; auto. split; auto.
    rewrite t_index_eq by now apply inside_length. now rewrite HR.
Qed.
Print Assumptions C27_bijection.
(** the order of the numbers is the lexicographic order of the positions *)
Theorem C27_order shape p q m n : inside shape p -> inside shape q ->
  t_index shape p = Ok m -> t_index shape q = Ok n -> (m <= n <-> lex_le p q).
Proof.
  intros Hp Hq E1 E2. rewrite t_index_eq in E1, E2 by now apply inside_length. injection E1 as <-. injection E2 as <-.
  now apply row_major_lex.
Qed.
Print Assumptions C27_order.
(** a position of another rank is rejected *)
Theorem C27_rank shape pos : length pos <> length shape -> t_index shape pos = Throw.
Proof. apply t_index_rank. Qed.
Print Assumptions C27_rank.

(** insert changes exactly one element; data outside the tensor's window stay as they are *)
Theorem C27_insert {F} {SF : Scalar F} (t : tdense F) pos v : td_ok t -> inside (t_shape t) pos ->
  exists t', td_insert t pos v = Ok t' /\ td_ok t' /\ t_shape t' = t_shape t /\ td_at t' pos = Ok v /\
    (forall pos', inside (t_shape t) pos' -> pos' <> pos -> td_at t' pos' = td_at t pos') /\
    (forall k, k < t_first t \/ t_first t + t_nnz t <= k -> nth_error (t_val t') k = nth_error (t_val t) k).
Proof.
  intros W H. destruct (@td_insert_full F SF t pos v W H) as (t' & E & W' & S & A & B).
  exists t'. repeat (split; [solve [auto]|]). intros k Hk. rewrite td_insert_ok in E by auto. injection E as <-.
  cbn [t_val t_set_val]. pose proof (row_major_lt H). destruct W as (_ & W2 & _).
  rewrite nth_error_upd_other; auto. lia.
Qed.
Print Assumptions C27_insert.
(** the constructors and the copy *)
Theorem C27_constructors {F} {SF : Scalar F} :
  (forall shape, exists t : tdense F, td_new shape = Ok t /\ td_ok t /\ t_shape t = shape /\
     forall pos, inside shape pos -> td_at t pos = Ok f0) /\
  (forall shape (value : list F), prod shape <= length value ->
     exists t, td_of_array shape value = Ok t /\ td_ok t /\ t_shape t = shape /\
     forall pos, inside shape pos -> td_at t pos = Ok (nth (row_major shape pos) value f0)) /\
  (forall s : tdense F, td_ok s -> exists t, td_copy s = Ok t /\ td_ok t /\ td_plain t /\ t_shape t = t_shape s /\
     forall pos, inside (t_shape s) pos -> td_at t pos = td_at s pos).
Proof.
  split; [|split].
  - intros shape. destruct (td_new_ok (F:=F) shape) as (t & E & W & _ & S & A). eauto 6.
  - intros shape value H. destruct (@td_of_array_ok F SF shape value H) as (t & E & W & _ & S & A). eauto 6.
  - intros s W. exact (@td_copy_ok F SF s W).
Qed.
Print Assumptions C27_constructors.

Example C27_example :
  (t_index [2;3;4] [1;2;3] = Ok 23 /\ t_unindex [2;3;4] 17 = Ok [1;1;1] /\ inside [2;3;4] [1;1;1]) /\
  (exists t, td_of_array [2;2;2] [1;2;3;4;5;6;7;8]%Z = Ok t /\ td_ok t /\
     (exists t', td_insert t [1;0;1] 9%Z = Ok t' /\ t_val t' = [1;2;3;4;5;9;7;8]%Z)).
Proof.
  split; [split; [reflexivity|split; [reflexivity|repeat constructor]]|].
  eexists; split; [vm_compute; reflexivity|]. split; [repeat split; cbn; lia|].
  eexists; split; vm_compute; reflexivity.
Qed.

(** ** C28 tensor_COO *)

(** after any history of inserts, at(pos) is the last value inserted at pos, 0 if none was *)
Theorem C28_insert_at {F} {SF : Scalar F} shape (ops : list (list nat * F)) :
  exists q, tc_inserts (tc_new shape) ops = Ok q /\ tc_ok q /\ q_shape q = shape /\ tc_entries q = ops /\
    forall pos, tc_at q pos = Ok (last_at ops pos).
Proof.
  assert (W : tc_ok (tc_new (F:=F) shape)) by (repeat split; cbn; lia).
  destruct (@tc_inserts_ok F SF ops _ W) as (q & E & W' & S & HE). exists q.
  cbn in HE. split; auto. split; auto. split; auto. split; auto. intros pos. now rewrite tc_at_ok, HE by auto.
Qed.
Print Assumptions C28_insert_at.
Theorem C28_insert_at_more {F} {SF : Scalar F} (q : tcoo F) (ops : list (list nat * F)) : tc_ok q ->
  exists q', tc_inserts q ops = Ok q' /\ tc_ok q' /\ q_shape q' = q_shape q /\ tc_entries q' = tc_entries q ++ ops /\
    forall pos, tc_at q' pos = Ok (last_at (tc_entries q ++ ops) pos).
Proof.
  intros W. destruct (@tc_inserts_ok F SF ops _ W) as (q' & E & W' & S & HE). exists q'.
  split; auto. split; auto. split; auto. split; auto. intros pos. now rewrite tc_at_ok, HE by auto.
Qed.
Print Assumptions C28_insert_at_more.

(** sort(false): the same entries in lexicographic order.  Missing from the full claim: tensors with more
    than 2^31 elements (C28_sort_big_refuted). *)
Theorem C28_sort_partial {F} {SF : Scalar F} (q : tcoo F) : tc_ok q -> tc_inside q -> fits_int (q_shape q) ->
  exists q', tc_sort q false = Ok q' /\ tc_ok q' /\ tc_inside q' /\ q_shape q' = q_shape q /\
    Permutation (tc_entries q) (tc_entries q') /\ StronglySorted lex_le (map fst (tc_entries q')) /\
    (tconsistent (tc_entries q) -> forall pos, tc_at q' pos = tc_at q pos).
Proof.
  intros W HI HF. destruct (tc_sort_nomerge W HI HF) as (q' & E & W' & HI' & S & _ & HP & HS).
  exists q'. repeat (split; [solve [auto]|]). intros HC pos. rewrite !tc_at_ok by auto. f_equal.
  apply last_at_consistent; auto.
  - intros x Hx. eapply Permutation_in; [symmetry; exact HP|exact Hx].
  - intros [v Hv]. exists v. eapply Permutation_in; eauto.
Qed.
Print Assumptions C28_sort_partial.
(** sort(true): strictly increasing positions, the same positions as before, every entry one of the old
    entries; the represented tensor unchanged when duplicates agree.  Missing: duplicates with different
    values (C28_merge_refuted), empty tensors (C28_merge_empty_refuted), more than 2^31 elements. *)
Theorem C28_merge_partial {F} {SF : Scalar F} (q : tcoo F) : tc_ok q -> tc_inside q -> fits_int (q_shape q) ->
  0 < q_nnz q ->
  exists q', tc_sort q true = Ok q' /\ tc_ok q' /\ tc_inside q' /\ q_shape q' = q_shape q /\
    StronglySorted lex_lt (map fst (tc_entries q')) /\ incl (tc_entries q') (tc_entries q) /\
    (forall p v, In (p, v) (tc_entries q) -> exists v', In (p, v') (tc_entries q')) /\
    (tconsistent (tc_entries q) -> forall pos, tc_at q' pos = tc_at q pos).
Proof. exact (@tc_sort_merge F SF q). Qed.
Print Assumptions C28_merge_partial.

(** the quicksort is not stable, so sort(true) may keep a value other than the last inserted one *)
Theorem C28_merge_refuted : exists (q q' : tcoo Z) pos, tc_ok q /\ tc_inside q /\ fits_int (q_shape q) /\
  tc_sort q true = Ok q' /\ tc_at q pos = Ok 1%Z /\ tc_at q' pos = Ok 2%Z.
Proof.
  set (ops := [([1;0], 2%Z); ([1;0], 1%Z); ([0;0], 5%Z)]).
  destruct (@C28_insert_at Z _ [2;2] ops) as (q & E & W & S & HE & _).
  exists q. vm_compute in E. injection E as <-.
  eexists. exists [1;0]. split; [exact W|]. split.
  { intros p v Hv. rewrite HE in Hv. cbn in Hv. rewrite S.
    repeat (destruct Hv as [Hv|Hv]; [injection Hv as <- <-; repeat constructor|]). destruct Hv. }
  split; [unfold fits_int; cbn; lia|]. split; [vm_compute; reflexivity|]. split; vm_compute; reflexivity.
Qed.
Print Assumptions C28_merge_refuted.
(** sort(true) of a tensor without entries makes up one entry *)
Theorem C28_merge_empty_refuted : exists q' : tcoo Z, tc_sort (tc_new [2;2]) true = Ok q' /\ q_nnz q' = 1 /\
  tc_at q' [0;0] = UB.
Proof. eexists. split; [vm_compute; reflexivity|]. split; vm_compute; reflexivity. Qed.
Print Assumptions C28_merge_empty_refuted.
(** the sort key is the flat index converted to a 32-bit int: in a 2 x 2^32 tensor two positions 2^32
    apart have the same key, and sort leaves them out of order *)
Theorem C28_sort_big_refuted (d : nat) : Z.of_nat d = (2 ^ 32)%Z ->
  exists q q' : tcoo Z, tc_ok q /\ tc_inside q /\ q_shape q = [2; d] /\
    tc_sort q false = Ok q' /\ map fst (tc_entries q') = [[1;0];[0;0]] /\
    ~ StronglySorted lex_le (map fst (tc_entries q')).
Proof.
  intros Hd. set (q := mkTC [2;d] [[1;0];[0;0]] [7;8]%Z 2 2 true).
  assert (K1 : tc_key [2;d] [[1;0];[0;0]] 0 = Ok 0%Z).
  { unfold tc_key. cbn [rd nth_error bind]. rewrite t_index_eq by reflexivity. cbn [bind row_major prod].
    unfold int_of. replace (Z.of_nat (1 * (d * 1) + (0 * 1 + 0))) with (2 ^ 32)%Z by (rewrite <- Hd; lia). reflexivity. }
  assert (K2 : tc_key [2;d] [[1;0];[0;0]] 1 = Ok 0%Z).
  { unfold tc_key. cbn [rd nth_error bind]. rewrite t_index_eq by reflexivity. cbn [bind row_major prod].
    unfold int_of. replace (Z.of_nat (0 * (d * 1) + (0 * 1 + 0))) with 0%Z by lia. reflexivity. }
  exists q, q. split; [repeat split; cbn; lia|]. split.
  { intros p v Hv. cbn in Hv. unfold inside.
    destruct Hv as [Hv|[Hv|[]]]; injection Hv as <- <-; cbn; (constructor; [lia|constructor; [lia|constructor]]). }
  split; [reflexivity|]. split.
  - unfold tc_sort, q. cbn [q_nnz q_shape q_index q_val q_alloc q_own].
    cbn [tc_qsort Nat.leb Nat.add Nat.sub fst snd rd nth_error bind]. rewrite K1, K2. cbn [bind].
    cbn [tc_part tc_scan_l Nat.sub Nat.add Nat.ltb Nat.leb fst bind].
    change (int_sub 0 0) with (Ok 0%Z). cbn [bind Z.leb Z.compare]. rewrite K2. reflexivity.
  - split; [reflexivity|]. cbn. intros H. inversion H as [|? ? ? HF]; subst. inversion HF as [|? ? HL]; subst.
    cbn in HL. lia.
Qed.
Print Assumptions C28_sort_big_refuted.

(** conversions.  Missing from the full claim: a tensor_Dense that is a window with an offset
    (C28_convert_refuted). *)
Theorem C28_coo_to_dense_partial {F} {SF : Scalar F} (t : tdense F) (q : tcoo F) :
  length (t_val t) = t_alloc t -> t_nnz t <= t_alloc t -> t_first t = 0 -> tc_ok q -> tc_inside q ->
  exists t', td_convert_coo t q = Ok t' /\ td_ok t' /\ td_plain t' /\ t_shape t' = q_shape q /\
    forall pos, inside (q_shape q) pos -> td_at t' pos = tc_at q pos.
Proof. exact (@td_convert_coo_ok F SF t q). Qed.
Print Assumptions C28_coo_to_dense_partial.
(** dense to COO: exactly the non-zero elements, in lexicographic order, each once; [at] agrees
    everywhere (an element comparing equal to 0 reads as 0) *)
Theorem C28_dense_to_coo_partial {F} {SF : Scalar F} (q : tcoo F) (t : tdense F) : tc_ok q -> td_ok t -> t_first t = 0 ->
  exists q', tc_convert_dense q t = Ok q' /\ tc_ok q' /\ tc_inside q' /\ q_shape q' = t_shape t /\
    StronglySorted lex_lt (map fst (tc_entries q')) /\
    (forall p v, In (p, v) (tc_entries q') <-> inside (t_shape t) p /\ td_at t p = Ok v /\ feqb v f0 = false) /\
    (forall p x, inside (t_shape t) p -> td_at t p = Ok x -> tc_at q' p = Ok (if feqb x f0 then f0 else x)).
Proof. exact (@tc_convert_dense_full F SF q t). Qed.
Print Assumptions C28_dense_to_coo_partial.
(** round trip: every element survives (one comparing equal to 0 comes back as 0) *)
Theorem C28_round_trip_partial {F} {SF : Scalar F} (q : tcoo F) (t t0 : tdense F) : tc_ok q -> td_ok t ->
  t_first t = 0 -> td_ok t0 -> t_first t0 = 0 ->
  exists q' t', tc_convert_dense q t = Ok q' /\ td_convert_coo t0 q' = Ok t' /\ t_shape t' = t_shape t /\
    forall p x, inside (t_shape t) p -> td_at t p = Ok x -> td_at t' p = Ok (if feqb x f0 then f0 else x).
Proof.
  intros W WT HF (A & B & C) HF0. destruct (@tc_convert_dense_full F SF q t W WT HF) as (q' & E & W' & I' & S & _ & _ & R).
  destruct (@td_convert_coo_ok F SF t0 q') as (t' & E' & _ & _ & S' & R'); auto; [lia|].
  exists q', t'. split; auto. split; auto. split; [congruence|]. intros p x Hp Hx. rewrite R' by now rewrite S.
  now apply R.
Qed.
Print Assumptions C28_round_trip_partial.
(** a window with an offset: the test looks at the start of the buffer, the value comes from the window *)
Theorem C28_convert_refuted : exists (t : tdense Z) (q' : tcoo Z), td_ok t /\ tc_convert_dense (tc_new []) t = Ok q' /\
  td_at t [0] = Ok 3%Z /\ tc_at q' [0] = Ok 0%Z.
Proof.
  exists (mkTD [2] [0;1;3;4]%Z 2 2 4 false). eexists. split; [repeat split; cbn; lia|].
  split; [vm_compute; reflexivity|]. split; vm_compute; reflexivity.
Qed.
Print Assumptions C28_convert_refuted.
(** diag: element i of the vector is the element (i,...,i) *)
Theorem C28_diag {F} {SF : Scalar F} (q : tcoo F) (vec : list F) : tc_ok q -> tc_inside q -> q_shape q <> [] ->
  Forall (fun d => length vec <= d) (q_shape q) -> In (length vec) (q_shape q) ->
  exists w, tc_diag q vec = Ok w /\ length w = length vec /\
    forall i, i < length vec -> tc_at q (repeat i (length (q_shape q))) = Ok (nth i w f0).
Proof. exact (@tc_diag_ok F SF q vec). Qed.
Print Assumptions C28_diag.

Example C28_example :
  let ops := [([1;0;1], 5%Z); ([0;1;0], 3%Z); ([1;0;1], 4%Z); ([0;0;0], 0%Z); ([1;1;1], 9%Z)] in
  exists q, tc_inserts (tc_new [2;2;2]) ops = Ok q /\ tc_ok q /\ tc_inside q /\ fits_int (q_shape q) /\
    tc_at q [1;0;1] = Ok 4%Z /\
    (exists q', tc_sort q false = Ok q' /\ map fst (tc_entries q') = [[0;0;0];[0;1;0];[1;0;1];[1;0;1];[1;1;1]]) /\
    (exists q', tc_sort q true = Ok q' /\ map fst (tc_entries q') = [[0;0;0];[0;1;0];[1;0;1];[1;1;1]]) /\
    (exists t, td_convert_coo (mkTD [] [] 0 0 0 true) q = Ok t /\ t_val t = [0;0;3;0;0;4;0;9]%Z /\
      exists q', tc_convert_dense (tc_new []) t = Ok q' /\ tc_entries q' = [([0;1;0],3%Z);([1;0;1],4%Z);([1;1;1],9%Z)]) /\
    tc_diag q [7;7]%Z = Ok [0;9]%Z.
Proof.
  intros ops. destruct (@C28_insert_at Z _ [2;2;2] ops) as (q & E & W & S & HE & _). exists q.
  split; auto. split; auto. split.
  { intros p v Hv. rewrite HE in Hv. rewrite S. unfold ops in Hv. cbn in Hv.
    repeat (destruct Hv as [Hv|Hv]; [injection Hv as <- <-; repeat constructor|]). destruct Hv. }
  split; [rewrite S; unfold fits_int; cbn; lia|].
  vm_compute in E. injection E as <-.
  split; [vm_compute; reflexivity|].
  split; [eexists; split; vm_compute; reflexivity|].
  split; [eexists; split; vm_compute; reflexivity|].
  split; [|vm_compute; reflexivity].
  eexists; split; [vm_compute; reflexivity|]. split; [reflexivity|]. eexists; split; vm_compute; reflexivity.
Qed.

(** ** C30 reshape *)

(** a successful call: the requested shape, missing dimension filled in; element count and data as before,
    so the element with row-major number n is still the element with number n *)
Theorem C30_success_partial {F} {SF : Scalar F} (t : tdense F) req : td_ok t -> snd (td_reshape t req) = Ok tt ->
  let t' := fst (td_reshape t req) in
  td_ok t' /\ resolves req (t_shape t') /\ prod (t_shape t') = prod (t_shape t) /\
  (forall p p', inside (t_shape t) p -> inside (t_shape t') p' ->
     row_major (t_shape t) p = row_major (t_shape t') p' -> td_at t' p' = td_at t p).
Proof.
  intros W H t'. destruct (@td_reshape_success F t req W H) as (A & B & C & D).
  fold t' in A, B, C, D. pose proof W as (_ & W2 & _).
  split; auto. split; auto. split; [congruence|]. intros p p' Hp Hp' E.
  rewrite !td_at_ok by auto. unfold tel. rewrite <- E. rewrite C. reflexivity.
Qed.
Print Assumptions C30_success_partial.

Lemma resolves_prod req sh : resolves req sh ->
  (negatives req = 0 -> prod sh = given req) /\ (negatives req = 1 -> exists x, prod sh = given req * x).
Proof.
  induction 1 as [|z n req sh H HR [IH0 IH1]]; [split; [reflexivity|discriminate]|].
  unfold negatives, given in *. cbn [filter].
  destruct (Z.ltb_spec z 0) as [Hz|Hz]; destruct (Z.leb_spec 0 z) as [Hz'|Hz']; try lia; cbn [length map prod].
  - split; [discriminate|]. intros E. exists n. rewrite IH0 by lia. lia.
  - destruct H as [H|H]; [lia|]. subst z. rewrite Nat2Z.id. split; intros E.
    + now rewrite IH0.
    + destruct (IH1 E) as [x ->]. exists x. lia.
Qed.

(** when at most one dimension is to be inferred and the product of the given ones is not 0: the call
    succeeds exactly when some completion of the requested shape has the right number of elements, and
    throws otherwise.  Two or more inferred dimensions throw. *)
Theorem C30_accept_partial {F} (t : tdense F) req :
  (negatives req = 0 \/ (negatives req = 1 /\ given req <> 0)) ->
  (snd (td_reshape t req) = Ok tt <-> exists sh, resolves req sh /\ prod sh = t_nnz t) /\
  (snd (td_reshape t req) = Ok tt \/ snd (td_reshape t req) = Throw).
Proof.
  intros HN. rewrite td_reshape_outcome.
  assert (G : forall b, require_ b = Ok tt \/ require_ b = Throw) by (intros []; cbn; auto).
  destruct HN as [HN|[HN HG]]; rewrite HN; cbn [Nat.leb Nat.eqb].
  - split; auto. split.
    + destruct (Nat.eqb_spec (given req) (t_nnz t)) as [E|]; [|discriminate]. intros _.
      exists (map (fillneg 0) req). split; [apply fillneg_resolves|]. rewrite prod_fillneg, HN. cbn. lia.
    + intros (sh & HR & HP). rewrite (proj1 (resolves_prod HR) HN) in HP. rewrite HP, Nat.eqb_refl. reflexivity.
  - destruct (Nat.eqb_spec (given req) 0) as [|_]; [lia|]. split; auto. split.
    + destruct (Nat.eqb_spec (given req * (t_nnz t / given req)) (t_nnz t)) as [E|]; [|discriminate]. intros _.
      exists (map (fillneg (t_nnz t / given req)) req). split; [apply fillneg_resolves|].
      rewrite prod_fillneg, HN. rewrite Nat.pow_1_r. auto.
    + intros (sh & HR & HP). destruct (proj2 (resolves_prod HR) HN) as [x Hx]. rewrite <- HP, Hx.
      replace (given req * x / given req) with x by (rewrite Nat.mul_comm, Nat.div_mul; auto).
      rewrite Nat.eqb_refl. reflexivity.
Qed.
Print Assumptions C30_accept_partial.
Theorem C30_two_inferred {F} (t : tdense F) req : 2 <= negatives req -> snd (td_reshape t req) = Throw.
Proof. intros H. rewrite td_reshape_outcome. destruct (Nat.leb_spec 2 (negatives req)); [reflexivity|lia]. Qed.
Print Assumptions C30_two_inferred.
(** the buffer, offset and element count never change, whatever the outcome *)
Theorem C30_data_kept {F} (t : tdense F) req :
  let t' := fst (td_reshape t req) in
  t_val t' = t_val t /\ t_first t' = t_first t /\ t_nnz t' = t_nnz t /\ t_alloc t' = t_alloc t.
Proof.
  unfold td_reshape. destruct (reshape_scan (t_shape t) req) as [[[sh minus] N]| | | |]; cbn [fst]; auto.
  destruct (2 <=? minus); [cbn; auto|]. destruct (minus =? 1); [|cbn; auto].
  destruct (reshape_infer sh req (t_nnz t) N) as [[sh' M]| | | |]; cbn; auto.
Qed.
Print Assumptions C30_data_kept.
(** but a rejected call does change the shape: the tensor is left broken ... *)
Theorem C30_throw_refuted : exists (t : tdense Z) req, td_ok t /\ snd (td_reshape t req) = Throw /\
  t_shape t = [2;3] /\ t_shape (fst (td_reshape t req)) = [4;2] /\ ~ td_ok (fst (td_reshape t req)) /\
  td_at t [1;2] = Ok 6%Z /\ td_at (fst (td_reshape t req)) [3;1] = Abort.
Proof.
  exists (mkTD [2;3] [1;2;3;4;5;6]%Z 0 6 6 true), [4;2]%Z. split; [repeat split; cbn; lia|].
  split; [reflexivity|]. split; [reflexivity|]. split; [reflexivity|].
  split; [intros (_ & H & _); vm_compute in H; discriminate|]. split; vm_compute; reflexivity.
Qed.
Print Assumptions C30_throw_refuted.
(** ... and a request with a 0 and a -1 divides by zero *)
Theorem C30_zero_refuted {F} (t : tdense F) req : negatives req = 1 -> given req = 0 ->
  snd (td_reshape t req) = UB.
Proof. intros H1 H0. rewrite td_reshape_outcome, H1, H0. reflexivity. Qed.
Print Assumptions C30_zero_refuted.
Example C30_example :
  (let t := mkTD [2;3;2] [1;2;3;4;5;6;7;8;9;10;11;12]%Z 0 12 12 true in
   td_ok t /\ snd (td_reshape t [4;-1]%Z) = Ok tt /\ t_shape (fst (td_reshape t [4;-1]%Z)) = [4;3] /\
   snd (td_reshape t [-1;5]%Z) = Throw /\ snd (td_reshape t [-1;-1]%Z) = Throw /\ snd (td_reshape t [12]%Z) = Ok tt) /\
  (negatives [0;-1]%Z = 1 /\ given [0;-1]%Z = 0).
Proof.
  split; [|split; reflexivity]. intros t. split; [repeat split; cbn; lia|].
  repeat split; vm_compute; reflexivity.
Qed.

(** ** C53 what tensor_Dense rejects *)

(** at and insert with any position at all: throw on a wrong rank, abort on a flat index beyond the
    tensor, otherwise read or write the element with that flat index, inside the tensor's own window.
    Missing from the full claim: rejection of a position outside the shape (C53_alias_refuted). *)
Theorem C53_access_partial {F} {SF : Scalar F} (t : tdense F) pos v : td_ok t ->
  if length pos =? length (t_shape t) then
    (let n := row_major (t_shape t) pos in
     if n <? t_nnz t then
       td_at t pos = Ok (nth (t_first t + n) (t_val t) f0) /\
       exists t', td_insert t pos v = Ok t' /\ td_ok t' /\ t_shape t' = t_shape t /\
         (forall k, nth_error (t_val t') k = if k =? t_first t + n then Some v else nth_error (t_val t) k)
     else td_at t pos = Abort /\ td_insert t pos v = Abort)
  else td_at t pos = Throw /\ td_insert t pos v = Throw.
Proof.
  intros (W1 & W2 & W3). unfold td_at, td_insert. destruct (Nat.eqb_spec (length pos) (length (t_shape t))) as [E|E].
  - rewrite t_index_eq by auto. cbn [bind]. cbv zeta. unfold td_at1, td_insert1.
    destruct (Nat.ltb_spec (row_major (t_shape t) pos) (t_nnz t)) as [L|L]; cbn [assert_ bind]; [|auto].
    destruct (Nat.ltb_spec (t_first t + row_major (t_shape t) pos) (t_alloc t)) as [_|]; [|lia]. cbn [assert_ bind].
    rewrite (@rd_lt _ (t_val t) _ f0) by lia. split; auto.
    rewrite wr_lt by lia. cbn [bind]. eexists; split; [reflexivity|]. split; [|split; [reflexivity|]].
    + split; [cbn; now rewrite upd_length|]. cbn. auto.
    + intros k. cbn [t_val t_set_val]. destruct (Nat.eqb_spec k (t_first t + row_major (t_shape t) pos)) as [->|Hk].
      * apply nth_error_upd_same. lia.
      * apply nth_error_upd_other. auto.
  - rewrite t_index_rank by auto. auto.
Qed.
Print Assumptions C53_access_partial.
(** a position outside the shape is accepted and aliases another element *)
Theorem C53_alias_refuted : exists (t t' : tdense Z), td_ok t /\ ~ inside (t_shape t) [0;5] /\
  td_at t [0;5] = td_at t [1;2] /\ td_insert t [0;5] 9%Z = Ok t' /\ td_at t' [1;2] = Ok 9%Z /\ td_at t [1;2] = Ok 6%Z.
Proof.
  exists (mkTD [2;3] [1;2;3;4;5;6]%Z 0 6 6 true). eexists. split; [repeat split; cbn; lia|].
  split; [intros H; repeat match goal with X : inside _ _ |- _ => unfold inside in X | X : Forall2 _ (_ :: _) _ |- _ => inversion X; clear X; subst end; lia|].
  split; [vm_compute; reflexivity|]. split; [vm_compute; reflexivity|]. split; vm_compute; reflexivity.
Qed.
Print Assumptions C53_alias_refuted.
(** the constructor from a std::vector accepts exactly as many values as it can hold or fewer; more
    values than elements overrun the buffer *)
Theorem C53_values_partial {F} {SF : Scalar F} shape (value : list F) : length value <= prod shape ->
  exists t, td_of_stdvector shape value = Ok t /\ td_ok t /\ t_shape t = shape /\
    forall pos, inside shape pos -> td_at t pos = Ok (nth (row_major shape pos) value f0).
Proof.
  intros HL. destruct (td_new_ok (F:=F) shape) as (t & E & W & (P1 & P2) & S & Z0).
  unfold td_of_stdvector. rewrite E. cbn [bind]. pose proof W as (H1 & H2 & H3).
  destruct (@copy_loop F f0 (length value) (t_first t) 0 value (t_val t)) as (v & Ev & Lv & Nv); [rewrite H1, P1; rewrite S in H2; lia|lia|].
  cbn [Nat.add] in Ev. rewrite Ev. cbn [bind]. eexists; split; [reflexivity|].
  assert (W' : td_ok (t_set_val t v)) by (apply td_ok_set; auto).
  split; auto. split; auto. intros pos Hp.
  rewrite td_at_ok by (auto; cbn; now rewrite S). unfold tel; cbn. f_equal. rewrite Nv.
  rewrite S, P1. cbn [Nat.add]. rewrite Nat.sub_0_r.
  destruct (Nat.ltb_spec (row_major shape pos) (length value)); [reflexivity|].
  specialize (Z0 pos Hp). rewrite td_at_ok in Z0 by (auto; now rewrite S). injection Z0 as Z0. unfold tel in Z0.
  rewrite S, P1 in Z0. cbn [Nat.add Nat.leb andb] in *. rewrite Z0. symmetry. now apply nth_overflow.
Qed.
Print Assumptions C53_values_partial.
Theorem C53_values_refuted {F} {SF : Scalar F} shape (value : list F) : prod shape < length value ->
  td_of_stdvector shape value = UB.
Proof.
  intros HL. destruct (td_new_ok (F:=F) shape) as (t & E & W & (P1 & P2) & S & Z0).
  unfold td_of_stdvector. rewrite E. cbn [bind]. unfold td_new, td_resize_shape, t_set_shape, td_empty in E.
  cbn [t_val t_first t_nnz t_alloc t_own] in E. rewrite td_resize_empty in E. cbn [bind] in E. injection E as <-.
  cbn [t_val t_first]. rewrite t_count_eq.
  destruct (@copy_loop F f0 (prod shape) 0 0 value (repeat f0 (prod shape))) as (v & Ev & Lv & Nv); [rewrite repeat_length; lia|lia|].
  rewrite (@for_split _ 0 (prod shape)) by lia. cbn [Nat.add] in *. rewrite Ev. cbn [bind].
  rewrite repeat_length in Lv.
  unfold for_. destruct (length value - prod shape) as [|m] eqn:Em; [lia|]. cbn [iter_].
  rewrite (@rd_lt _ value (prod shape) f0) by lia. cbn [bind].
  unfold wr. destruct (Nat.ltb_spec (prod shape) (length v)); [lia|]. reflexivity.
Qed.
Print Assumptions C53_values_refuted.

(** ** C54 comparison of tensor_Dense *)
(** for tensors that start at the beginning of their buffers: operator== holds exactly when shapes and
    all elements agree.  Missing: windows with an offset (C54_window_refuted). *)
Theorem C54_equal_partial {F} {SF : Scalar F} (a b : tdense F) : td_ok a -> td_ok b -> t_first a = 0 -> t_first b = 0 ->
  exists r, td_equal a b = Ok r /\
    (r = true <-> t_shape a = t_shape b /\
       forall pos x y, inside (t_shape a) pos -> td_at a pos = Ok x -> td_at b pos = Ok y -> feqb y x = true).
Proof.
  intros Wa Wb Fa Fb. pose proof Wa as (A1 & A2 & A3). pose proof Wb as (B1 & B2 & B3). unfold td_equal.
  destruct (Nat.eqb_spec (length (t_shape a)) (length (t_shape b))) as [EL|EL]; cbn [negb].
  2:{ eexists; split; [reflexivity|]. split; [discriminate|]. intros [E _]. congruence. }
  destruct (forallb (fun i => nth i (t_shape a) 0 =? nth i (t_shape b) 0) (seq 0 (length (t_shape a)))) eqn:EF; cbn [negb].
  2:{ eexists; split; [reflexivity|]. split; [discriminate|]. intros [E _]. rewrite E in EF.
      assert (X : forallb (fun i => nth i (t_shape b) 0 =? nth i (t_shape b) 0) (seq 0 (length (t_shape b))) = true)
        by (apply forallb_forall; intros; apply Nat.eqb_refl). congruence. }
  assert (ES : t_shape a = t_shape b).
  { apply list_ext with (d := 0); auto. intros i Hi. rewrite forallb_forall in EF. apply Nat.eqb_eq, EF, in_seq. lia. }
  destruct (@vequalF_ok F SF (t_nnz a) (t_val a) (t_val b)) as (r & E & H); [lia|rewrite B1; rewrite <- ES in B2; lia|].
  exists r. split; auto. rewrite H. split.
  - intros HH. split; auto. intros pos x y Hp Hx Hy. rewrite td_at_ok in Hx, Hy by (auto; now rewrite <- ES).
    injection Hx as <-. injection Hy as <-. unfold tel. rewrite Fa, Fb, <- ES. cbn [Nat.add].
    apply HH. rewrite A2. now apply row_major_lt.
  - intros [_ HH] i Hi. rewrite A2 in Hi. destruct (t_unindex_ok _ Hi) as (pos & _ & Hp & Hr).
    specialize (HH pos (tel a pos) (tel b pos) Hp). rewrite !td_at_ok in HH by (auto; now rewrite <- ES).
    unfold tel in HH. rewrite Fa, Fb, <- ES, Hr in HH. now apply HH.
Qed.
Print Assumptions C54_equal_partial.
(** two windows showing different elements of the same buffer compare equal, and equal ones differ *)
Theorem C54_window_refuted : exists a b c : tdense Z, td_ok a /\ td_ok b /\ td_ok c /\
  td_at a [0] = Ok 1%Z /\ td_at b [0] = Ok 3%Z /\ td_equal a b = Ok true /\
  td_at c [0] = Ok 1%Z /\ td_at c [1] = td_at a [1] /\ td_equal a c = Ok false.
Proof.
  exists (mkTD [2] [1;2;3;4]%Z 0 2 4 false), (mkTD [2] [1;2;3;4]%Z 2 2 4 false), (mkTD [2] [0;1;2]%Z 1 2 3 false).
  repeat split; cbn; try lia; vm_compute; reflexivity.
Qed.
Print Assumptions C54_window_refuted.
Example C54_example :
  let a := mkTD [2;2] [1;2;3;4]%Z 0 4 4 true in
  let b := mkTD [2;2] [1;2;3;5]%Z 0 4 4 true in
  let c := mkTD [4] [1;2;3;4]%Z 0 4 4 true in
  td_ok a /\ td_ok b /\ td_ok c /\ td_equal a a = Ok true /\ td_equal a b = Ok false /\ td_equal a c = Ok false.
Proof. repeat split; cbn; try lia; vm_compute; reflexivity. Qed.
