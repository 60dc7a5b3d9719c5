(** * TensorCooProof: tensor_COO insert/at/sort and conversions *)
From Coq Require Import Permutation Sorted.
From Verif Require Import Base Scalar Spec Loops DenseModel GSort CooSortProof TensorModel TensorSpec TensorProof.
Set Implicit Arguments.

Ltac qsimpl := cbn [q_shape q_index q_val q_nnz q_alloc q_own].

Section TensorCoo.
Context {F : Type} {SF : Scalar F}.
Local Notation item := (list nat * F)%type.
Local Notation D := (([], f0) : item).

Lemma tc_entries_length (q : tcoo F) : tc_ok q -> length (tc_entries q) = q_nnz q.
Proof. intros (H1 & H2 & H3 & H4). unfold tc_entries. rewrite firstn_length, combine_length. lia. Qed.

Lemma tc_entries_nth (q : tcoo F) i : tc_ok q -> i < q_nnz q ->
  nth i (tc_entries q) D = (nth i (q_index q) [], nth i (q_val q) f0).
Proof.
  intros (H1 & H2 & H3 & H4) Hi. unfold tc_entries. rewrite nth_firstn by auto.
  apply combine_nth. lia.
Qed.

Lemma tc_entries_ext (q q' : tcoo F) : tc_ok q -> tc_ok q' -> q_nnz q = q_nnz q' ->
  (forall i, i < q_nnz q -> nth i (q_index q) [] = nth i (q_index q') [] /\ nth i (q_val q) f0 = nth i (q_val q') f0) ->
  tc_entries q = tc_entries q'.
Proof.
  intros W W' HN H. apply list_ext with (d := D); [now rewrite !tc_entries_length|].
  intros i Hi. rewrite tc_entries_length in Hi by auto. rewrite !tc_entries_nth by (auto; lia).
  destruct (H i Hi) as (-> & ->). reflexivity.
Qed.

Lemma tc_resize_ok (q : tcoo F) N Val :
  q_own q = true -> Nat.min (q_nnz q) N <= length (q_val q) ->
  exists q', tc_resize q N Val = Ok q' /\ tc_ok q' /\ q_shape q' = q_shape q /\ q_nnz q' = N /\ q_alloc q' = N /\
    q_index q' = vresize [] (q_index q) N /\
    (forall i, i < Nat.min (q_nnz q) N -> nth i (q_val q') f0 = nth i (q_val q) f0) /\
    (forall i, q_nnz q <= i < N -> nth i (q_val q') f0 = Val).
Proof.
  intros H4 H2. unfold tc_resize. rewrite H4.
  rewrite (@copy_loop0 F f0) by (rewrite ?repeat_length; lia). cbn [bind].
  assert (HL : length (firstn (Nat.min (q_nnz q) N) (q_val q) ++ skipn (Nat.min (q_nnz q) N) (repeat f0 N)) = N).
  { rewrite app_length, firstn_length, skipn_length, repeat_length. lia. }
  destruct (@fill_loop F f0 Val (Nat.min (q_nnz q) N) N 0
     (firstn (Nat.min (q_nnz q) N) (q_val q) ++ skipn (Nat.min (q_nnz q) N) (repeat f0 N)))
     as (t' & E & HLt & HN); try lia.
  cbn [Nat.add] in E. rewrite E. cbn [bind]. eexists; split; [reflexivity|]. qsimpl.
  split; [|split; [|split; [|split; [|split; [|split]]]]]; auto.
  - unfold tc_ok; qsimpl. rewrite vresize_length, HLt, HL. auto.
  - intros i Hi. rewrite HN. cbn [Nat.add].
    destruct (Nat.leb_spec (Nat.min (q_nnz q) N) i); [lia|]. cbn [andb].
    rewrite app_nth1 by (rewrite firstn_length; lia). apply nth_firstn. lia.
  - intros i Hi. rewrite HN. cbn [Nat.add].
    destruct (Nat.leb_spec (Nat.min (q_nnz q) N) i); [|lia]. destruct (Nat.ltb_spec i N); [|lia]. reflexivity.
Qed.

Lemma tc_insert_ok (q : tcoo F) p v : tc_ok q ->
  exists q', tc_insert q p v = Ok q' /\ tc_ok q' /\ q_shape q' = q_shape q /\ tc_entries q' = tc_entries q ++ [(p, v)].
Proof.
  intros W. unfold tc_insert. pose proof W as (H1 & H2 & H3 & H4). rewrite H4.
  assert (HC : exists q1, (if q_alloc q <=? q_nnz q
     then q' <- tc_resize q (2 * q_alloc q + 1) f0 ;;
          Ok (mkTC (q_shape q') (q_index q') (q_val q') (q_nnz q) (q_alloc q') (q_own q'))
     else Ok q) = Ok q1 /\ tc_ok q1 /\ q_shape q1 = q_shape q /\ q_nnz q1 = q_nnz q /\ q_nnz q1 < q_alloc q1 /\
     tc_entries q1 = tc_entries q).
  { destruct (Nat.leb_spec (q_alloc q) (q_nnz q)) as [Hf|Hr].
    - destruct (@tc_resize_ok q (2 * q_alloc q + 1) f0 H4) as (q' & E & W' & Hs & Hn & Ha & Hi & Hv & _); [lia|].
      rewrite E. cbn [bind]. eexists; split; [reflexivity|]. qsimpl.
      assert (W1 : tc_ok (mkTC (q_shape q') (q_index q') (q_val q') (q_nnz q) (q_alloc q') (q_own q'))).
      { destruct W' as (A1 & A2 & A3 & A4). repeat split; qsimpl; auto. lia. }
      split; auto. split; auto. split; auto. split; [lia|].
      apply tc_entries_ext; auto. qsimpl. intros i Hlt. rewrite Hv by lia. split; auto.
      rewrite Hi, nth_vresize by lia. destruct (Nat.ltb_spec i (length (q_index q))); [auto|lia].
    - exists q. auto 10. }
  destruct HC as (q1 & -> & W1 & Hs1 & Hn1 & Hlt & HE1). destruct W1 as (A1 & A2 & A3 & A4).
  cbn [bind]. rewrite !wr_lt by lia. cbn [bind]. eexists; split; [reflexivity|]. qsimpl.
  split; [|split]; auto.
  - repeat split; qsimpl; rewrite ?upd_length; auto. lia.
  - unfold tc_entries at 1. qsimpl. rewrite combine_upd. rewrite Nat.add_1_r.
    rewrite (@firstn_S_nth _ _ _ D) by (rewrite upd_length, combine_length; lia).
    rewrite firstn_upd_ge by lia. rewrite nth_upd_same by (rewrite combine_length; lia).
    rewrite <- HE1. reflexivity.
Qed.

Lemma tc_inserts_ok ops (q : tcoo F) : tc_ok q ->
  exists q', tc_inserts q ops = Ok q' /\ tc_ok q' /\ q_shape q' = q_shape q /\ tc_entries q' = tc_entries q ++ ops.
Proof.
  revert q; induction ops as [|[p v] ops IH]; intros q W; cbn [tc_inserts].
  - exists q. rewrite app_nil_r. auto.
  - destruct (@tc_insert_ok q p v W) as (q1 & -> & W1 & Hs & HE). cbn [bind].
    destruct (IH q1 W1) as (q2 & E2 & W2 & Hs2 & HE2). exists q2. split; auto. split; auto.
    split; [congruence|]. rewrite HE2, HE, <- app_assoc. reflexivity.
Qed.

Lemma last_at_snoc (ts : list item) p v pos :
  last_at (ts ++ [(p, v)]) pos = if list_eq_dec Nat.eq_dec p pos then v else last_at ts pos.
Proof. unfold last_at. rewrite fold_left_app. reflexivity. Qed.

Lemma tc_at_loop_ok (q : tcoo F) pos k : tc_ok q -> k <= q_nnz q ->
  tc_at_loop q pos k = Ok (last_at (firstn k (tc_entries q)) pos).
Proof.
  intros W. induction k as [|k IH]; intros Hk; cbn [tc_at_loop]; [reflexivity|].
  rewrite (@firstn_S_nth _ _ _ D) by (rewrite tc_entries_length; auto).
  rewrite tc_entries_nth by (auto; lia). rewrite last_at_snoc.
  pose proof W as (H1 & H2 & H3 & H4).
  rewrite (@rd_lt _ (q_index q) k []) by lia. cbn [bind].
  destruct (list_eq_dec Nat.eq_dec (nth k (q_index q) []) pos); [apply rd_lt; lia|apply IH; lia].
Qed.

Lemma tc_at_ok (q : tcoo F) pos : tc_ok q -> tc_at q pos = Ok (last_at (tc_entries q) pos).
Proof.
  intros W. unfold tc_at. rewrite tc_at_loop_ok by auto.
  rewrite <- (tc_entries_length W), firstn_all. reflexivity.
Qed.

(** *** sort *)
Definition unzip2 (z : list item) : list (list nat) * list F := (map fst z, map snd z).

Lemma unzip_combine (ix : list (list nat)) (v : list F) : length ix = length v -> unzip2 (combine ix v) = (ix, v).
Proof.
  unfold unzip2. revert v; induction ix as [|a ix IH]; intros [|b v] H; cbn in *; try lia; auto.
  specialize (IH v ltac:(lia)). injection IH as E1 E2. now rewrite E1, E2.
Qed.
Lemma combine_unzip (z : list item) : combine (map fst z) (map snd z) = z.
Proof. induction z as [|[a b] z IH]; cbn; auto. now rewrite IH. Qed.

Section Sorting.
Variable shape : list nat.
Hypothesis Hfit : (Z.of_nat (prod shape) <= 2 ^ 31)%Z.

Definition key (a : item) : Z := Z.of_nat (row_major shape (fst a)).
Definition icmp (a b : item) : Z := (key a - key b)%Z.
Definition ile (a b : item) : Prop := row_major shape (fst a) <= row_major shape (fst b).
Lemma icmp_le a b : (icmp a b <= 0)%Z <-> ile a b.
Proof. unfold icmp, ile, key. lia. Qed.
Lemma icmp_ge a b : (icmp a b >= 0)%Z <-> ile b a.
Proof. unfold icmp, ile, key. lia. Qed.
Lemma ile_trans a b c : ile a b -> ile b c -> ile a c.
Proof. unfold ile. lia. Qed.

(** the first n items are inside *)
Definition good (n : nat) (z : list item) : Prop := forall i, i < n -> inside shape (fst (nth i z D)).

Lemma int_of_small n : (Z.of_nat n < 2 ^ 31)%Z -> int_of n = Z.of_nat n.
Proof.
  intros H. unfold int_of. rewrite Z.mod_small; [lia|].
  assert (2 ^ 32 = 2 * 2 ^ 31)%Z by reflexivity. lia.
Qed.

Lemma key_range n z i : good n z -> i < n -> (0 <= key (nth i z D) < 2 ^ 31)%Z.
Proof. intros G Hi. pose proof (row_major_lt (G i Hi)). unfold key. lia. Qed.

Lemma tc_key_ok n z i : good n z -> i < n -> n <= length z -> tc_key shape (map fst z) i = Ok (key (nth i z D)).
Proof.
  intros G Hi HL. unfold tc_key. rewrite rd_map, (@rd_lt _ z i D) by lia. cbn [rmap bind].
  rewrite t_index_eq by (apply inside_length, G; auto). cbn [bind].
  f_equal. apply int_of_small. pose proof (row_major_lt (G i Hi)). lia.
Qed.

Lemma int_sub_ok a b : (0 <= a < 2 ^ 31)%Z -> (0 <= b < 2 ^ 31)%Z -> int_sub a b = Ok (a - b)%Z.
Proof.
  intros Ha Hb. unfold int_sub.
  destruct (Z.leb_spec (- 2 ^ 31) (a - b)); [|lia]. destruct (Z.ltb_spec (a - b) (2 ^ 31)); [|lia]. reflexivity.
Qed.

Lemma scan_l_sim n z fuel p h l : good n z -> n <= length z -> l <= h -> h <= p -> p < n ->
  tc_scan_l fuel shape (map fst z) (key (nth p z D)) h l (key (nth l z D))
  = rmap (fun l' => (l', key (nth l' z D))) (gscan_l icmp fuel z p h l).
Proof.
  intros G HL. revert l; induction fuel as [|fuel IH]; intros l H1 H2 H3; cbn [tc_scan_l gscan_l];
    destruct (Nat.ltb_spec l h); auto.
  - rewrite int_sub_ok by (eapply key_range; eauto; lia).
    rewrite (@gcmp_ok _ D icmp) by lia. cbn [bind]. unfold icmp.
    destruct (key (nth l z D) - key (nth p z D) <=? 0)%Z; reflexivity.
  - rewrite int_sub_ok by (eapply key_range; eauto; lia).
    rewrite (@gcmp_ok _ D icmp) by lia. cbn [bind]. unfold icmp at 1.
    destruct (key (nth l z D) - key (nth p z D) <=? 0)%Z; [|reflexivity].
    rewrite (@tc_key_ok n) by (auto; lia). cbn [bind]. apply IH; lia.
Qed.

Lemma scan_h_sim n z fuel p h l : good n z -> n <= length z -> l <= h -> h <= p -> p < n ->
  tc_scan_h fuel shape (map fst z) (key (nth p z D)) l h (key (nth h z D))
  = rmap (fun h' => (h', key (nth h' z D))) (gscan_h icmp fuel z p l h).
Proof.
  intros G HL. revert h; induction fuel as [|fuel IH]; intros h H1 H2 H3; cbn [tc_scan_h gscan_h];
    destruct (Nat.ltb_spec l h); auto.
  - rewrite int_sub_ok by (eapply key_range; eauto; lia).
    rewrite (@gcmp_ok _ D icmp) by lia. cbn [bind]. unfold icmp.
    destruct (key (nth h z D) - key (nth p z D) >=? 0)%Z; reflexivity.
  - rewrite int_sub_ok by (eapply key_range; eauto; lia).
    rewrite (@gcmp_ok _ D icmp) by lia. cbn [bind]. unfold icmp at 1.
    destruct (key (nth h z D) - key (nth p z D) >=? 0)%Z; [|reflexivity].
    rewrite (@tc_key_ok n) by (auto; lia). cbn [bind]. apply IH; lia.
Qed.

Lemma part_sim n fuel z p l h : good n z -> n <= length z -> l <= h -> h <= p -> p < n ->
  tc_part fuel shape (unzip2 z) (key (nth p z D)) l h (key (nth l z D)) (key (nth h z D))
  = rmap (fun r => (unzip2 (fst r), snd r)) (gpart icmp fuel z p l h).
Proof.
  revert z l h; induction fuel as [|fuel IH]; intros z l h G HL H1 H2 H3; cbn [tc_part gpart]; auto.
  cbn [unzip2 fst].
  rewrite (@scan_l_sim n) by auto.
  destruct (@gscan_l_ok _ D icmp ile icmp_le (h - l) z p h l) as (l1 & E1 & B1 & _); try lia.
  rewrite E1. cbn [rmap bind].
  rewrite (@scan_h_sim n) by (auto; lia).
  destruct (@gscan_h_ok _ D icmp ile icmp_ge (h - l1) z p h l1) as (h1 & E2 & B2 & _ & N2); try lia.
  rewrite E2. cbn [rmap bind].
  destruct (Nat.ltb_spec l1 h1) as [Hlt|]; [|reflexivity].
  assert (h1 < p). { destruct (Nat.eq_dec h1 p) as [->|]; [|lia]. exfalso. apply (N2 Hlt). unfold ile. lia. }
  change (snd (unzip2 z)) with (map snd z). rewrite !swap_at_map.
  destruct (@GSort.swap_at_ok _ D z l1 h1) as (z1 & E3 & SL & Sa & Sb & So); try lia.
  rewrite E3. cbn [rmap bind].
  assert (G1 : good n z1).
  { intros i Hi. destruct (Nat.eq_dec i l1) as [->|]; [rewrite Sa; apply G; lia|].
    destruct (Nat.eq_dec i h1) as [->|]; [rewrite Sb; apply G; lia|]. rewrite So by auto. apply G; auto. }
  rewrite <- Sa, <- Sb, <- (So p) by lia.
  change (map fst z1, map snd z1) with (unzip2 z1). apply IH; auto; try lia.
Qed.

Lemma seg_good n lo hi1 z z' : seg D lo hi1 z z' -> hi1 <= n -> good n z -> good n z'.
Proof.
  intros (_ & O & I) H G i Hi.
  destruct (le_lt_dec lo i); [destruct (le_lt_dec hi1 i)|].
  - rewrite O by lia. auto.
  - destruct (I i) as (j & Hj & ->); [lia|]. apply G. lia.
  - rewrite O by lia. auto.
Qed.

Lemma qsort_sim n fuel z lo hi1 : good n z -> n <= length z -> hi1 <= n -> hi1 - lo <= fuel ->
  tc_qsort fuel shape (unzip2 z) lo hi1 = rmap unzip2 (gqsort icmp fuel z lo hi1).
Proof.
  revert z lo hi1; induction fuel as [|fuel IH]; intros z lo hi1 G HL Hh Hf; cbn [tc_qsort gqsort].
  - destruct (Nat.leb_spec hi1 (lo + 1)); reflexivity.
  - destruct (Nat.leb_spec hi1 (lo + 1)); auto.
    cbn [unzip2 fst snd]. rewrite !rd_map, !(@rd_lt _ z (hi1 - 1) D) by lia. cbn [rmap bind].
    rewrite (@tc_key_ok n), (@tc_key_ok n) by (auto; lia). cbn [bind].
    change (map fst z, map snd z) with (unzip2 z).
    rewrite (@part_sim n) by (auto; lia).
    destruct (@gpart_ok _ D icmp ile icmp_le icmp_ge (S (hi1 - 1 - lo)) z (hi1 - 1) lo (hi1 - 1) lo)
      as (z1 & l & E & B & SG & HP & _ & _); try lia.
    { intros i Hi. replace i with (hi1 - 1) by lia. unfold ile. lia. }
    rewrite E. cbn [rmap bind]. cbn [unzip2 fst snd].
    pose proof (seg_len SG) as HL1.
    assert (G1 : good n z1) by (eapply seg_good; eauto; lia).
    rewrite !rd_map, !(@rd_lt _ z1 l D) by lia. cbn [rmap bind].
    rewrite (wr_map fst z1 (hi1 - 1) (nth l z1 D)), wr_lt by lia. cbn [rmap bind].
    rewrite (wr_map fst (upd z1 (hi1 - 1) (nth l z1 D)) l (nth (hi1 - 1) z D)), wr_lt by (rewrite upd_length; lia). cbn [rmap bind].
    rewrite ?rd_map, ?(@rd_lt _ z1 l D) by lia. cbn [rmap bind].
    rewrite (wr_map snd z1 (hi1 - 1) (nth l z1 D)), wr_lt by lia. cbn [rmap bind].
    rewrite (wr_map snd (upd z1 (hi1 - 1) (nth l z1 D)) l (nth (hi1 - 1) z D)), wr_lt by (rewrite upd_length; lia). cbn [rmap bind].
    set (z3 := upd (upd z1 (hi1 - 1) (nth l z1 D)) l (nth (hi1 - 1) z D)).
    assert (G3 : good n z3).
    { intros i Hi. unfold z3. destruct (Nat.eq_dec l i) as [<-|].
      - rewrite nth_upd_same by (rewrite upd_length; lia). apply G. lia.
      - rewrite nth_upd_other by auto. destruct (Nat.eq_dec (hi1 - 1) i) as [<-|].
        + rewrite nth_upd_same by lia. apply G1. lia.
        + rewrite nth_upd_other by auto. apply G1. lia. }
    assert (HL3 : length z3 = length z) by (unfold z3; rewrite !upd_length; auto).
    change (map fst z3, map snd z3) with (unzip2 z3).
    destruct (l - lo <? hi1 - 1 - l); rewrite IH by (auto; lia);
    match goal with |- context [gqsort icmp fuel z3 ?a ?b] =>
      destruct (@gqsort_ok _ D icmp ile icmp_le icmp_ge ile_trans fuel z3 a b) as (z4 & E4 & SG4 & _); try lia end;
      rewrite E4; cbn [rmap bind]; pose proof (seg_len SG4);
      apply IH; try lia; eapply seg_good; eauto; lia.
Qed.

Lemma merge_ok z n : good n z -> 0 < n <= length z ->
  (forall i j, i <= j < n -> ile (nth i z D) (nth j z D)) ->
  exists z' k, tc_merge (unzip2 z) n = Ok (unzip2 z', k) /\ k < n /\ length z' = length z /\
    (forall i j, i < j < k + 1 -> row_major shape (fst (nth i z' D)) < row_major shape (fst (nth j z' D))) /\
    incl (firstn (k + 1) z') (firstn n z) /\
    (forall p v, In (p, v) (firstn n z) -> exists v', In (p, v') (firstn (k + 1) z')).
Proof.
  intros G Hn HS. unfold tc_merge.
  match goal with |- context [for_ 1 n ?B ?s] =>
  destruct (@for_inv _ (fun i (st : list (list nat) * list F * nat) => exists z' k, st = (unzip2 z', k) /\ k < i /\
    length z' = length z /\
    (forall a b, a < b < k + 1 -> row_major shape (fst (nth a z' D)) < row_major shape (fst (nth b z' D))) /\
    (forall a, a < k + 1 -> exists b, b < i /\ nth a z' D = nth b z D) /\
    (forall b, b < i -> exists a, a < k + 1 /\ fst (nth a z' D) = fst (nth b z D)) /\
    fst (nth k z' D) = fst (nth (i - 1) z D) /\
    (forall a, i <= a -> nth a z' D = nth a z D)) 1 n B s)
   as (st & E & z' & k & -> & Hk & HL & I1 & I2 & I3 & I4 & I5) end.
  - lia.
  - exists z, 0. split; auto. split; [lia|]. split; auto. split; [intros; lia|].
    split; [intros a Ha; exists a; split; auto; lia|].
    split; [intros b Hb; exists b; split; auto; lia|]. split; auto.
  - intros i st Hi (z' & k & -> & Hk & HL & I1 & I2 & I3 & I4 & I5).
    unfold unzip2 at 1. rewrite !rd_map.
    rewrite (@rd_lt _ z' k D), (@rd_lt _ z' i D) by lia. cbn [rmap bind].
    rewrite (I5 i) by lia.
    assert (Hle : row_major shape (fst (nth k z' D)) <= row_major shape (fst (nth i z D))).
    { rewrite I4. apply HS. lia. }
    assert (Gk : inside shape (fst (nth k z' D))) by (rewrite I4; apply G; lia).
    assert (Gi : inside shape (fst (nth i z D))) by (apply G; lia).
    set (same := list_eq_dec Nat.eq_dec (fst (nth k z' D)) (fst (nth i z D))).
    set (k' := if same then k else k + 1).
    exists (unzip2 (upd z' k' (nth i z D)), k'). split.
    + unfold unzip2. rewrite !map_upd.
      subst k'. unfold same.
      destruct (list_eq_dec Nat.eq_dec (fst (nth k z' D)) (fst (nth i z D))) as [Er|Er]; cbn [bind].
      * rewrite wr_lt by (rewrite map_length; lia). cbn [bind].
        rewrite <- Er. rewrite <- (map_nth fst z' D k). rewrite !upd_nth_id. reflexivity.
      * rewrite !wr_lt by (rewrite map_length; lia). cbn [bind].
        rewrite !wr_lt by (rewrite map_length; lia). reflexivity.
    + assert (Hk' : k' < S i) by (unfold k'; destruct same; lia).
      assert (Hpos : forall a, a < k' + 1 -> fst (nth a (upd z' k' (nth i z D)) D) =
                 if a =? k' then fst (nth i z D) else fst (nth a z' D)).
      { intros a Ha. destruct (Nat.eqb_spec a k') as [->|].
        - rewrite nth_upd_same by lia. auto.
        - rewrite nth_upd_other by lia. auto. }
      exists (upd z' k' (nth i z D)), k'. split; auto. split; auto.
      split; [now rewrite upd_length|]. split; [|split; [|split; [|split]]].
      * intros a b Hab. rewrite !Hpos by lia.
        destruct (Nat.eqb_spec a k'); [lia|].
        destruct (Nat.eqb_spec b k') as [->|].
        -- subst k'. destruct same as [Er|Er].
           ++ rewrite <- Er. apply I1. lia.
           ++ assert (Y : row_major shape (fst (nth k z' D)) < row_major shape (fst (nth i z D))).
              { assert (row_major shape (fst (nth k z' D)) <> row_major shape (fst (nth i z D))); [|lia].
                intros X. apply Er. eapply row_major_inj; eauto. }
              destruct (Nat.eq_dec a k) as [->|]; auto.
              assert (row_major shape (fst (nth a z' D)) < row_major shape (fst (nth k z' D))) by (apply I1; lia). lia.
        -- apply I1. unfold k' in *. destruct same; lia.
      * intros a Ha. destruct (Nat.eq_dec a k') as [->|].
        -- exists i. rewrite nth_upd_same by lia. split; auto.
        -- rewrite nth_upd_other by lia. destruct (I2 a) as (b & Hb & Eb).
           { unfold k' in *; destruct same; lia. }
           exists b. split; auto; lia.
      * intros b Hb. destruct (Nat.eq_dec b i) as [->|].
        -- exists k'. split; [lia|]. rewrite nth_upd_same by lia. auto.
        -- destruct (I3 b) as (a & Ha & Ea); [lia|].
           exists a. split; [unfold k'; destruct same; lia|].
           rewrite Hpos by (unfold k'; destruct same; lia).
           destruct (Nat.eqb_spec a k') as [->|]; auto.
           unfold k' in *. destruct same as [Es|]; [|lia]. rewrite <- Ea. auto.
      * rewrite nth_upd_same by lia. cbn. now rewrite Nat.sub_0_r.
      * intros a Ha. rewrite nth_upd_other by lia. apply I5. lia.
  - exists z', k. split; [exact E|]. split; auto. split; auto. split; auto. split.
    + intros x Hx. apply (in_firstn_nth (n:=k+1) z' x D) in Hx; [|lia].
      destruct Hx as (a & Ha & <-). destruct (I2 a Ha) as (b & Hb & ->).
      apply (in_firstn_nth (n:=n) z _ D); [lia|]. eauto.
    + intros p v Hv. apply (in_firstn_nth (n:=n) z _ D) in Hv; [|lia].
      destruct Hv as (b & Hb & E1). destruct (I3 b Hb) as (a & Ha & E2).
      exists (snd (nth a z' D)). apply (in_firstn_nth (n:=k+1) z' _ D); [lia|].
      exists a. split; auto. rewrite E1 in E2. cbn in E2. rewrite <- E2.
      destruct (nth a z' D); reflexivity.
Qed.
End Sorting.

Definition fits_int (shape : list nat) : Prop := (Z.of_nat (prod shape) <= 2 ^ 31)%Z.

Lemma seg_firstn2 n (z z' : list item) :
  n <= length z -> seg D 0 n z z' -> Permutation (firstn n z) (firstn n z').
Proof.
  intros Hn SG. pose proof (seg_len SG) as HL. destruct SG as (P & O & _).
  apply Permutation_app_inv_r with (l := skipn n z).
  replace (skipn n z) with (skipn n z') at 2.
  - now rewrite !firstn_skipn.
  - apply list_ext with (d := D).
    + rewrite !skipn_length. lia.
    + intros i Hi. rewrite !nth_skipn. apply O. lia.
Qed.

Lemma qsort_ok (q : tcoo F) : tc_ok q -> tc_inside q -> fits_int (q_shape q) ->
  exists z, tc_qsort (q_nnz q) (q_shape q) (q_index q, q_val q) 0 (q_nnz q) = Ok (unzip2 z) /\
    length z = q_alloc q /\ Permutation (tc_entries q) (firstn (q_nnz q) z) /\ good (q_shape q) (q_nnz q) z /\
    (forall i j, i <= j < q_nnz q -> ile (q_shape q) (nth i z D) (nth j z D)).
Proof.
  intros W HI HF. pose proof W as (H1 & H2 & H3 & H4).
  set (z0 := combine (q_index q) (q_val q)).
  assert (L0 : length z0 = q_alloc q) by (unfold z0; rewrite combine_length; lia).
  assert (G0 : good (q_shape q) (q_nnz q) z0).
  { intros i Hi. destruct (nth i z0 D) as [p v] eqn:Ep. cbn. apply (HI p v).
    unfold tc_entries. fold z0. apply (in_firstn_nth (n:=q_nnz q) z0 _ D); [lia|]. eauto. }
  rewrite <- (@unzip_combine (q_index q) (q_val q)) by lia. fold z0.
  rewrite (@qsort_sim _ HF (q_nnz q)) by (auto; lia).
  destruct (@gqsort_ok _ D (icmp (q_shape q)) (ile (q_shape q)) (icmp_le (q_shape q)) (icmp_ge (q_shape q)) (@ile_trans (q_shape q))
     (q_nnz q) z0 0 (q_nnz q)) as (z & E & SG & SO); try lia.
  rewrite E. exists z. split; [reflexivity|]. pose proof (seg_len SG). split; [lia|].
  split; [|split].
  - unfold tc_entries. fold z0. apply seg_firstn2; auto. lia.
  - eapply seg_good; eauto.
  - intros i j Hij. apply SO; lia.
Qed.

Lemma entries_unzip2 shape (z : list item) n al o : tc_entries (mkTC shape (map fst z) (map snd z) n al o) = firstn n z.
Proof. unfold tc_entries. qsimpl. now rewrite combine_unzip. Qed.

Lemma in_entries_inside (q : tcoo F) z n : good (q_shape q) n z -> n <= length z ->
  forall p v, In (p, v) (firstn n z) -> inside (q_shape q) p.
Proof.
  intros G HL p v Hv. apply (in_firstn_nth (n:=n) z _ D) in Hv; [|lia]. destruct Hv as (i & Hi & E).
  specialize (G i Hi). rewrite E in G. exact G.
Qed.

Theorem tc_sort_nomerge (q : tcoo F) : tc_ok q -> tc_inside q -> fits_int (q_shape q) ->
  exists q', tc_sort q false = Ok q' /\ tc_ok q' /\ tc_inside q' /\ q_shape q' = q_shape q /\ q_nnz q' = q_nnz q /\
    Permutation (tc_entries q) (tc_entries q') /\ StronglySorted lex_le (map fst (tc_entries q')).
Proof.
  intros W HI HF. destruct (qsort_ok W HI HF) as (z & E & HL & HP & HG & HS).
  unfold tc_sort. rewrite E. unfold unzip2. cbn [bind]. eexists; split; [reflexivity|].
  unfold tc_inside. rewrite entries_unzip2. qsimpl. pose proof W as (H1 & H2 & H3 & H4).
  split; [repeat split; qsimpl; rewrite ?map_length; auto|].
  split; [eapply in_entries_inside; eauto; lia|]. split; auto. split; auto. split; auto.
  apply nth_strongly_sorted with (d := fst D). rewrite map_length, firstn_length. intros i j Hij.
  rewrite !map_nth, !nth_firstn by lia. apply (@row_major_lex (q_shape q)); try (apply HG; lia). apply HS. lia.
Qed.

Lemma last_at_in (ts : list item) p :
  ((exists v, In (p, v) ts) -> In (p, last_at ts p) ts) /\ ((~ exists v, In (p, v) ts) -> last_at ts p = f0).
Proof.
  induction ts as [|[r v] ts [IH1 IH2]] using rev_ind.
  - split; [intros [v []]|reflexivity].
  - rewrite last_at_snoc. destruct (list_eq_dec Nat.eq_dec r p) as [->|Hr].
    + split; [intros _; apply in_or_app; right; cbn; auto|].
      intros H. exfalso. apply H. exists v. apply in_or_app. cbn. auto.
    + split.
      * intros [v' Hv]. apply in_app_or in Hv. apply in_or_app. left. apply IH1.
        destruct Hv as [Hv|[Hv|[]]]; eauto. congruence.
      * intros H. apply IH2. intros [v' Hv]. apply H. exists v'. apply in_or_app. auto.
Qed.

Lemma in_p_dec (ts : list item) p : (exists v, In (p, v) ts) \/ ~ (exists v, In (p, v) ts).
Proof.
  induction ts as [|[r v] ts IH]; [right; intros [v []]|].
  destruct IH as [[v' Hv]|IH]; [left; exists v'; right; auto|].
  destruct (list_eq_dec Nat.eq_dec r p) as [->|].
  - left. exists v. left. auto.
  - right. intros [v' [Hv|Hv]]; [congruence|]. apply IH. eauto.
Qed.

(** equal positions carry equal values *)
Definition tconsistent (ts : list item) : Prop := forall p v v', In (p, v) ts -> In (p, v') ts -> v = v'.

Lemma last_at_consistent (ts ts' : list item) p : tconsistent ts -> incl ts' ts ->
  ((exists v, In (p, v) ts) -> exists v, In (p, v) ts') -> last_at ts' p = last_at ts p.
Proof.
  intros HC HI HE. destruct (in_p_dec ts p) as [H|H].
  - pose proof (proj1 (last_at_in ts p) H) as A. pose proof (proj1 (last_at_in ts' p) (HE H)) as B.
    eapply HC; [apply HI; exact B|exact A].
  - rewrite (proj2 (last_at_in ts p) H). apply last_at_in. intros [v Hv]. apply H. exists v. apply HI. exact Hv.
Qed.

Theorem tc_sort_merge (q : tcoo F) : tc_ok q -> tc_inside q -> fits_int (q_shape q) -> 0 < q_nnz q ->
  exists q', tc_sort q true = Ok q' /\ tc_ok q' /\ tc_inside q' /\ q_shape q' = q_shape q /\
    StronglySorted lex_lt (map fst (tc_entries q')) /\ incl (tc_entries q') (tc_entries q) /\
    (forall p v, In (p, v) (tc_entries q) -> exists v', In (p, v') (tc_entries q')) /\
    (tconsistent (tc_entries q) -> forall pos, tc_at q' pos = tc_at q pos).
Proof.
  intros W HI HF Hpos. destruct (qsort_ok W HI HF) as (z & E & HL & HP & HG & HS). pose proof W as (H1 & H2 & H3 & H4).
  destruct (@merge_ok (q_shape q) z (q_nnz q)) as (z' & k & EM & Hk & HL' & S1 & S2 & S3); auto; [lia|].
  unfold tc_sort. rewrite E. unfold unzip2 at 1. cbn [bind].
  unfold unzip2 in EM at 1. rewrite EM. unfold unzip2. cbn [bind].
  eexists; split; [reflexivity|].
  assert (HI' : incl (firstn (k + 1) z') (tc_entries q)).
  { intros x Hx. apply S2 in Hx. eapply Permutation_in; [symmetry; exact HP|exact Hx]. }
  assert (HE : forall p v, In (p, v) (tc_entries q) -> exists v', In (p, v') (firstn (k + 1) z')).
  { intros p v Hv. apply (S3 p v). eapply Permutation_in; eauto. }
  assert (W' : tc_ok (mkTC (q_shape q) (map fst z') (map snd z') (k + 1) (q_alloc q) (q_own q))).
  { repeat split; qsimpl; rewrite ?map_length; auto; lia. }
  split; auto. unfold tc_inside. rewrite entries_unzip2. qsimpl.
  assert (HIn : forall p v, In (p, v) (firstn (k + 1) z') -> inside (q_shape q) p).
  { intros p v Hv. apply (HI p v). apply HI'. auto. }
  split; [auto|]. split; auto. split; [|split; [auto|split; [auto|]]].
  - apply nth_strongly_sorted with (d := fst D). rewrite map_length, firstn_length. intros i j Hij.
    rewrite !map_nth, !nth_firstn by lia.
    assert (X : forall a, a < k + 1 -> inside (q_shape q) (fst (nth a z' D))).
    { intros a Ha. destruct (nth a z' D) as [p v] eqn:Ep. apply (HIn p v).
      apply (in_firstn_nth (n:=k+1) z' _ D); [lia|]. eauto. }
    assert (Y : row_major (q_shape q) (fst (nth i z' D)) < row_major (q_shape q) (fst (nth j z' D))) by (apply S1; lia).
    split.
    + apply (@row_major_lex (q_shape q)); try (apply X; lia). lia.
    + intros EE. rewrite EE in Y. lia.
  - intros HC pos. rewrite !tc_at_ok by auto. rewrite entries_unzip2. f_equal.
    apply last_at_consistent; auto. intros [v Hv]. eauto.
Qed.

End TensorCoo.
