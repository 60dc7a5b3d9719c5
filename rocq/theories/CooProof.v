(** * CooProof: insert/at/resize/transpose/getvec/compare of COO *)
From Verif Require Import Base Scalar Spec Loops DenseModel CooModel Observe.
Set Implicit Arguments.

Ltac csimpl := cbn [c_row c_col c_ri c_ci c_val c_nnz c_alloc c_own].

Section CooProof.
Context {F : Type} {SF : Scalar F}.
Local Notation triple := (nat * nat * F)%type.

Definition zip3 (s : arr3 (F:=F)) : list triple :=
  let '(ri, ci, v) := s in combine (combine ri ci) v.

Lemma zip3_length ri ci v n :
  length ri = n -> length ci = n -> length v = n -> length (zip3 (ri, ci, v)) = n.
Proof. intros. unfold zip3. rewrite !combine_length. lia. Qed.

Lemma zip3_nth ri ci v n i d1 d2 d3 :
  length ri = n -> length ci = n -> length v = n ->
  nth i (zip3 (ri, ci, v)) (d1, d2, d3) = (nth i ri d1, nth i ci d2, nth i v d3).
Proof.
  intros. unfold zip3. rewrite combine_nth by (rewrite combine_length; lia).
  rewrite combine_nth by lia. reflexivity.
Qed.

Lemma coo_resize_ok (c : coo F) N Val :
  coo_ok c ->
  exists c', coo_resize c N Val = Ok c' /\ coo_ok c' /\
    c_row c' = c_row c /\ c_col c' = c_col c /\ c_nnz c' = N /\ c_alloc c' = N /\
    (forall i, i < Nat.min (c_nnz c) N ->
       nth i (c_ri c') 0 = nth i (c_ri c) 0 /\ nth i (c_ci c') 0 = nth i (c_ci c) 0 /\
       nth i (c_val c') f0 = nth i (c_val c) f0) /\
    (forall i, c_nnz c <= i < N -> nth i (c_val c') f0 = Val).
Proof.
  intros (H1 & H2 & H3 & H4 & H5). unfold coo_resize. rewrite H5.
  rewrite (@copy_loop0 F f0) by (rewrite ?repeat_length; lia).
  cbn [bind].
  assert (HL : length (firstn (Nat.min (c_nnz c) N) (c_val c) ++
           skipn (Nat.min (c_nnz c) N) (repeat f0 N)) = N).
  { rewrite app_length, firstn_length, skipn_length, repeat_length. lia. }
  destruct (@fill_loop F f0 Val (Nat.min (c_nnz c) N) N 0
     (firstn (Nat.min (c_nnz c) N) (c_val c) ++ skipn (Nat.min (c_nnz c) N) (repeat f0 N)))
     as (t' & E & HLt & HN); try lia.
  cbn [Nat.add] in E. rewrite E. cbn [bind]. eexists; split; [reflexivity|].
  split; [|split; [|split; [|split; [|split; [|split]]]]]; cbn; auto.
  - unfold coo_ok; cbn. rewrite !vresize_length, HLt, HL. auto.
  - intros i Hi. rewrite !nth_vresize by lia.
    destruct (Nat.ltb_spec i (length (c_ri c))); [|lia].
    destruct (Nat.ltb_spec i (length (c_ci c))); [|lia].
    split; auto. split; auto. rewrite HN. cbn [Nat.add].
    destruct (Nat.leb_spec (Nat.min (c_nnz c) N) i); [lia|]. cbn [andb].
    rewrite app_nth1 by (rewrite firstn_length; lia). apply nth_firstn. lia.
  - intros i Hi. rewrite HN. cbn [Nat.add].
    destruct (Nat.leb_spec (Nat.min (c_nnz c) N) i); [|lia].
    destruct (Nat.ltb_spec i N); [|lia]. reflexivity.
Qed.

Lemma coo_entries_length (c : coo F) : coo_ok c -> length (coo_entries c) = c_nnz c.
Proof.
  intros (H1 & H2 & H3 & H4 & H5). unfold coo_entries.
  rewrite firstn_length, !combine_length. lia.
Qed.

Lemma coo_entries_nth (c : coo F) i :
  coo_ok c -> i < c_nnz c ->
  nth i (coo_entries c) (0, 0, f0) = (nth i (c_ri c) 0, nth i (c_ci c) 0, nth i (c_val c) f0).
Proof.
  intros (H1 & H2 & H3 & H4 & H5) Hi. unfold coo_entries.
  rewrite nth_firstn by auto.
  apply (@zip3_nth (c_ri c) (c_ci c) (c_val c) (c_alloc c)); auto.
Qed.

Lemma entries_ext (c c' : coo F) :
  coo_ok c -> coo_ok c' -> c_nnz c = c_nnz c' ->
  (forall i, i < c_nnz c -> nth i (c_ri c) 0 = nth i (c_ri c') 0 /\
     nth i (c_ci c) 0 = nth i (c_ci c') 0 /\ nth i (c_val c) f0 = nth i (c_val c') f0) ->
  coo_entries c = coo_entries c'.
Proof.
  intros W W' HN H. apply list_ext with (d := (0, 0, f0)).
  - now rewrite !coo_entries_length.
  - intros i Hi. rewrite coo_entries_length in Hi by auto.
    rewrite !coo_entries_nth by (auto; lia).
    destruct (H i Hi) as (-> & -> & ->). reflexivity.
Qed.

(** the list after one insert *)
Lemma coo_insert_ok (c : coo F) m n v :
  coo_ok c -> m <= c_row c -> n <= c_col c ->
  exists c', coo_insert c m n v = Ok c' /\ coo_ok c' /\
    c_row c' = c_row c /\ c_col c' = c_col c /\
    coo_entries c' = coo_entries c ++ [(m, n, v)].
Proof.
  intros W Hm Hn. unfold coo_insert.
  assert (Ho : c_own c = true) by apply W. rewrite Ho.
  rewrite (proj2 (Nat.leb_le _ _) Hm), (proj2 (Nat.leb_le _ _) Hn). cbn [assert_ bind].
  assert (HC : exists c1,
     (if c_alloc c <=? c_nnz c
      then c' <- coo_resize c (2 * c_alloc c + 1) f0;;
           Ok (mkCoo (c_row c') (c_col c') (c_ri c') (c_ci c') (c_val c') (c_nnz c) (c_alloc c') (c_own c'))
      else Ok c) = Ok c1 /\ coo_ok c1 /\ c_row c1 = c_row c /\ c_col c1 = c_col c /\
      c_nnz c1 = c_nnz c /\ c_nnz c1 < c_alloc c1 /\ coo_entries c1 = coo_entries c).
  { destruct (Nat.leb_spec (c_alloc c) (c_nnz c)) as [Hfull|Hroom].
    - destruct (@coo_resize_ok c (2 * c_alloc c + 1) f0 W)
        as (c' & E & W' & Hr & Hc & Hnz & Hal & Hcp & _).
      rewrite E. cbn [bind]. eexists; split; [reflexivity|]. csimpl.
      assert (HA : c_nnz c <= c_alloc c) by apply W.
      split; [|split; [|split; [|split; [|split]]]]; auto; try lia.
      + destruct W' as (A1 & A2 & A3 & A4 & A5). repeat split; cbn; auto. lia.
      + apply entries_ext; csimpl; auto.
        * destruct W' as (A1 & A2 & A3 & A4 & A5). repeat split; cbn; auto. lia.
        * intros i Hi. apply Hcp. lia.
    - exists c. repeat split; auto; apply W. }
  destruct HC as (c1 & -> & W1 & Hr1 & Hc1 & Hn1 & Hlt & HE1).
  destruct W1 as (A1 & A2 & A3 & A4 & A5).
  cbn [bind]. rewrite !wr_lt by lia. cbn [bind].
  eexists; split; [reflexivity|]. csimpl.
  split; [|split; [|split]]; auto.
  - repeat split; csimpl; rewrite ?upd_length; auto. lia.
  - unfold coo_entries at 1. cbn [c_nnz c_ri c_ci c_val].
    rewrite !combine_upd.
    replace (c_nnz c1 + 1) with (S (c_nnz c1)) by lia.
    rewrite (@firstn_S_nth _ _ _ (0, 0, f0)) by (rewrite upd_length, !combine_length; lia).
    rewrite firstn_upd_ge by lia.
    rewrite nth_upd_same by (rewrite !combine_length; lia).
    rewrite <- HE1. reflexivity.
Qed.

Lemma coo_inserts_ok ops (c : coo F) :
  coo_ok c -> Forall (fun t => fst (fst t) <= c_row c /\ snd (fst t) <= c_col c) ops ->
  exists c', coo_inserts c ops = Ok c' /\ coo_ok c' /\
    c_row c' = c_row c /\ c_col c' = c_col c /\ coo_entries c' = coo_entries c ++ ops.
Proof.
  revert c; induction ops as [|[[m n] v] ops IH]; intros c W HF; cbn [coo_inserts].
  - exists c. rewrite app_nil_r. auto.
  - inversion HF as [|? ? [Hm Hn] HF']; subst. cbn in Hm, Hn.
    destruct (@coo_insert_ok c m n v W Hm Hn) as (c1 & E & W1 & Hr & Hc & HE).
    rewrite E. cbn [bind].
    destruct (IH c1 W1) as (c2 & E2 & W2 & Hr2 & Hc2 & HE2).
    { rewrite Hr, Hc. exact HF'. }
    exists c2. rewrite E2. split; auto. split; auto. split; [congruence|]. split; [congruence|].
    rewrite HE2, HE, <- app_assoc. reflexivity.
Qed.

Lemma coo_new_ok M N : coo_ok (coo_new (F:=F) M N).
Proof. unfold coo_ok; cbn; auto. Qed.

(** *** last_wins *)
Definition hits (i j : nat) (t : triple) : bool := (fst (fst t) =? i) && (snd (fst t) =? j).

Lemma last_wins_snoc (ts : list triple) r c v i j :
  last_wins (ts ++ [(r, c, v)]) i j =
  if (r =? i) && (c =? j) then v else last_wins ts i j.
Proof.
  induction ts as [|[[r' c'] v'] ts IH].
  - reflexivity.
  - cbn [app last_wins]. rewrite existsb_app, IH. cbn [existsb fst snd].
    rewrite orb_false_r.
    destruct ((r =? i) && (c =? j)).
    + rewrite orb_true_r. reflexivity.
    + rewrite orb_false_r. reflexivity.
Qed.

Lemma last_wins_firstn_S (ts : list triple) k i j :
  k < length ts ->
  last_wins (firstn (S k) ts) i j =
  let '(r, c, v) := nth k ts (0, 0, f0) in
  if (r =? i) && (c =? j) then v else last_wins (firstn k ts) i j.
Proof.
  intros H. rewrite (@firstn_S_nth _ _ _ (0,0,f0)) by auto.
  destruct (nth k ts (0, 0, f0)) as [[r c] v]. apply last_wins_snoc.
Qed.

Lemma coo_at_loop_ok (c : coo F) i j k :
  coo_ok c -> k <= c_nnz c ->
  coo_at_loop c i j k = Ok (last_wins (firstn k (coo_entries c)) i j).
Proof.
  intros W. induction k as [|k IH]; intros Hk; cbn [coo_at_loop].
  - reflexivity.
  - assert (Hlen : k < length (coo_entries c)) by (rewrite coo_entries_length; auto).
    rewrite last_wins_firstn_S by auto.
    rewrite coo_entries_nth by (auto; lia).
    destruct W as (A1 & A2 & A3 & A4 & A5).
    rewrite (@rd_lt _ (c_ri c) k 0) by lia. cbn [bind].
    destruct (Nat.eqb_spec (nth k (c_ri c) 0) i); cbn [andb].
    + rewrite (@rd_lt _ (c_ci c) k 0) by lia. cbn [bind].
      destruct (Nat.eqb_spec (nth k (c_ci c) 0) j).
      * apply rd_lt. lia.
      * apply IH. lia.
    + apply IH. lia.
Qed.

Lemma coo_at_ok (c : coo F) i j :
  coo_ok c -> i <= c_row c -> j <= c_col c ->
  coo_at c i j = Ok (last_wins (coo_entries c) i j).
Proof.
  intros W Hi Hj. unfold coo_at.
  rewrite (proj2 (Nat.leb_le _ _) Hi), (proj2 (Nat.leb_le _ _) Hj). cbn [assert_ bind].
  rewrite coo_at_loop_ok by auto.
  rewrite <- (coo_entries_length W), firstn_all. reflexivity.
Qed.

Theorem coo_insert_at M N ops :
  in_range M N ops ->
  exists c, coo_inserts (coo_new M N) ops = Ok c /\ c_row c = M /\ c_col c = N /\
    c_nnz c = length ops /\
    forall i j, i < M -> j < N -> coo_at c i j = Ok (last_wins ops i j).
Proof.
  intros HR.
  destruct (@coo_inserts_ok ops (coo_new M N)) as (c & E & W & Hr & Hc & HE).
  - apply coo_new_ok.
  - cbn. eapply Forall_impl; [|exact HR]. cbn. intros; lia.
  - cbn in HE. exists c. split; auto. split; auto. split; auto.
    split.
    + rewrite <- (coo_entries_length W), HE. reflexivity.
    + intros i j Hi Hj. rewrite coo_at_ok by (auto; cbn in *; lia). now rewrite HE.
Qed.

End CooProof.
