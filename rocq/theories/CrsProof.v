(** * CrsProof: traversals of a CRS matrix, matvec, conversions *)
From Verif Require Import Base Scalar Spec Loops DenseModel CooModel Observe CooProof CooSortProof
  CooMiscProof CrsModel CrsObserve.
Set Implicit Arguments.

Ltac msimpl := cbn [m_row m_col m_rp m_ci m_val m_first m_nnz m_alloc m_own m_hash m_set_val m_set_own
  m_set_rc m_set_st crs_compute_hash crs_empty].

Section CrsProof.
Context {F : Type} {SF : Scalar F} {SC : Schedule}.
Local Notation triple := (nat * nat * F)%type.
Local Notation D := (0, 0, f0).

Lemma rp_mono (a : crs F) i j : crs_ok a -> i <= j <= m_row a -> rpn a i <= rpn a j.
Proof.
  intros (_ & _ & H & _) [Hij Hj]. induction Hij as [|j Hij IH]; auto.
  specialize (H j ltac:(lia)). rewrite Nat.add_1_r in H. assert (rpn a i <= rpn a j) by (apply IH; lia). lia.
Qed.

Lemma rp_le_nnz (a : crs F) i : crs_ok a -> i <= m_row a -> rpn a i <= m_nnz a.
Proof.
  intros W H. pose proof (rp_mono W (conj H (le_n _))) as G.
  destruct W as (_ & _ & _ & E & _). now rewrite E in G.
Qed.

Lemma rd_rp (a : crs F) i : crs_ok a -> i <= m_row a -> rd (m_rp a) i = Ok (rpn a i).
Proof. intros (H & _) Hi. apply rd_lt. lia. Qed.

Lemma rd_ci (a : crs F) k : crs_ok a -> k < m_nnz a -> rd (m_ci a) k = Ok (cin a k).
Proof. intros (_ & _ & _ & _ & H & _) Hi. apply rd_lt. lia. Qed.

Lemma rd_val (a : crs F) k : crs_ok a -> k < m_nnz a -> rd (m_val a) (m_first a + k) = Ok (vln a k).
Proof. intros (_ & _ & _ & _ & _ & _ & H & G) Hi. apply rd_lt. lia. Qed.

Lemma rd_val0 (a : crs F) k : crs_ok a -> m_first a = 0 -> k < m_nnz a -> rd (m_val a) k = Ok (vln a k).
Proof. intros W H Hk. rewrite <- rd_val by auto. now rewrite H. Qed.

Lemma cin_lt (a : crs F) k : crs_ok a -> k < m_nnz a -> cin a k < m_col a.
Proof. intros (_ & _ & _ & _ & _ & H & _). auto. Qed.

(** entries of the first [n] rows *)
Definition pre_entries (a : crs F) n : list triple :=
  flat_map (fun i => map (fun p => (i, fst p, snd p)) (crs_row a i)) (seq 0 n).

Lemma pre_entries_S (a : crs F) n :
  pre_entries a (S n) = pre_entries a n ++ map (fun p => (n, fst p, snd p)) (crs_row a n).
Proof. unfold pre_entries. rewrite seq_S, flat_map_app. cbn. now rewrite app_nil_r. Qed.

Lemma crs_row_length (a : crs F) i : length (crs_row a i) = rpn a (i + 1) - rpn a i.
Proof. unfold crs_row. now rewrite map_length, seq_length. Qed.

Lemma pre_entries_length (a : crs F) n : crs_ok a -> n <= m_row a -> length (pre_entries a n) = rpn a n.
Proof.
  intros W. induction n as [|n IH]; intros H.
  - destruct W as (_ & E & _). now rewrite E.
  - rewrite pre_entries_S, app_length, map_length, crs_row_length, IH by lia.
    assert (rpn a n <= rpn a (S n)) by (apply rp_mono; auto; lia).
    rewrite Nat.add_1_r. lia.
Qed.

Lemma crs_entries_pre (a : crs F) : crs_entries a = pre_entries a (m_row a).
Proof. reflexivity. Qed.

Lemma crs_entries_length (a : crs F) : crs_ok a -> length (crs_entries a) = m_nnz a.
Proof. intros W. rewrite crs_entries_pre. rewrite pre_entries_length by auto. apply W. Qed.

Lemma pre_entries_nth (a : crs F) n i k :
  crs_ok a -> n <= m_row a -> i < n -> rpn a i <= k < rpn a (i + 1) ->
  nth k (pre_entries a n) D = (i, cin a k, vln a k).
Proof.
  intros W. induction n as [|n IH]; intros H Hi Hk; [lia|].
  rewrite pre_entries_S.
  destruct (Nat.eq_dec i n) as [->|Hne].
  - rewrite app_nth2 by (rewrite pre_entries_length; lia || auto; lia).
    rewrite pre_entries_length by (auto; lia).
    unfold crs_row. rewrite map_map. cbn [fst snd].
    rewrite nth_map_seq by lia. repeat f_equal; lia.
  - rewrite app_nth1.
    + apply IH; auto; lia.
    + rewrite pre_entries_length by (auto; lia).
      assert (rpn a (i + 1) <= rpn a n) by (apply rp_mono; auto; lia). lia.
Qed.

Lemma crs_entries_nth (a : crs F) i k :
  crs_ok a -> i < m_row a -> rpn a i <= k < rpn a (i + 1) ->
  nth k (crs_entries a) D = (i, cin a k, vln a k).
Proof. intros W Hi Hk. apply pre_entries_nth; auto. Qed.

Lemma crs_row_of (a : crs F) k n :
  crs_ok a -> n <= m_row a -> k < rpn a n -> exists i, i < n /\ rpn a i <= k < rpn a (i + 1).
Proof.
  intros W. induction n as [|n IH]; intros Hn Hk.
  - destruct W as (_ & E & _). lia.
  - destruct (Nat.lt_ge_cases k (rpn a n)) as [H|H].
    + destruct IH as (i & H1 & H2); auto; try lia. exists i. lia.
    + exists n. rewrite Nat.add_1_r. lia.
Qed.

Lemma crs_entries_ex (a : crs F) k :
  crs_ok a -> k < m_nnz a -> exists i, i < m_row a /\ rpn a i <= k < rpn a (i + 1) /\
    nth k (crs_entries a) D = (i, cin a k, vln a k).
Proof.
  intros W Hk. destruct (@crs_row_of a k (m_row a) W) as (i & H1 & H2); auto.
  { destruct W as (_ & _ & _ & E & _). lia. }
  exists i. repeat split; auto; try lia. now apply crs_entries_nth.
Qed.

Lemma crs_in_range (a : crs F) : crs_ok a -> in_range (m_row a) (m_col a) (crs_entries a).
Proof.
  intros W. apply Forall_forall. intros t Ht. apply In_nth with (d := D) in Ht.
  destruct Ht as (k & Hk & <-). rewrite crs_entries_length in Hk by auto.
  destruct (crs_entries_ex W Hk) as (i & Hi & _ & ->). cbn. split; auto. now apply cin_lt.
Qed.

(** the double loop over rows and [row_ptr[i], row_ptr[i+1]) *)
Definition crs_nest {S} (a : crs F) (n : nat) (body : nat -> nat -> S -> res S) (s : S) : res S :=
  for_ 0 n (fun i s => lo <- rd (m_rp a) i ;; hi <- rd (m_rp a) (i + 1) ;; for_ lo hi (body i) s) s.

Lemma crs_nest_inv {S} (P : nat -> S -> Prop) (a : crs F) n (body : nat -> nat -> S -> res S) s :
  crs_ok a -> n <= m_row a -> P 0 s ->
  (forall i k s, i < n -> rpn a i <= k < rpn a (i + 1) -> k < m_nnz a ->
     nth k (crs_entries a) D = (i, cin a k, vln a k) -> P k s ->
     exists s', body i k s = Ok s' /\ P (Datatypes.S k) s') ->
  exists s', crs_nest a n body s = Ok s' /\ P (rpn a n) s'.
Proof.
  intros W Hn H0 Hs. unfold crs_nest.
  apply (@for0_inv S (fun i s => P (rpn a i) s)).
  - destruct W as (_ & E & _). now rewrite E.
  - intros i s1 Hi HP. rewrite !rd_rp by (auto; lia). cbn [bind].
    assert (Hm : rpn a i <= rpn a (i + 1)) by (apply rp_mono; auto; lia).
    assert (Hm2 : rpn a (i + 1) <= m_nnz a) by (apply rp_le_nnz; auto; lia).
    rewrite Nat.add_1_r in *.
    apply for_inv; auto. intros k s2 Hk HP2. apply Hs; auto; try lia.
    + rewrite Nat.add_1_r. lia.
    + apply crs_entries_nth; auto; [lia|]. rewrite Nat.add_1_r. lia.
Qed.

(** a pure body makes the double loop a fold over the entries *)
Lemma crs_nest_fold {S} (I : S -> Prop) (g : S -> triple -> S) (a : crs F) (body : nat -> nat -> S -> res S) s :
  crs_ok a -> I s ->
  (forall i k s, i < m_row a -> rpn a i <= k < rpn a (i + 1) -> k < m_nnz a -> I s ->
     body i k s = Ok (g s (i, cin a k, vln a k)) /\ I (g s (i, cin a k, vln a k))) ->
  crs_nest a (m_row a) body s = Ok (fold_left g (crs_entries a) s) /\
  I (fold_left g (crs_entries a) s).
Proof.
  intros W H0 Hs.
  destruct (@crs_nest_inv S (fun k s' => s' = fold_left g (firstn k (crs_entries a)) s /\ I s') a (m_row a) body s)
    as (s' & E & -> & HI); auto.
  - intros i k s1 Hi Hk Hn HE [-> HI]. destruct (Hs i k _ Hi Hk Hn HI) as [-> HI'].
    eexists; split; eauto. split; auto.
    rewrite (@firstn_S_nth _ _ _ D) by (rewrite crs_entries_length; auto).
    rewrite fold_left_app. cbn [fold_left]. now rewrite HE.
  - assert (Hr : rpn a (m_row a) = m_nnz a) by apply W.
    rewrite Hr, firstn_all2 in * by (rewrite crs_entries_length; auto). auto.
Qed.

(** a single row *)
Lemma crs_row_fold {S} (g : S -> nat * F -> S) (a : crs F) i (body : nat -> S -> res S) s :
  crs_ok a -> i < m_row a ->
  (forall k s, rpn a i <= k < rpn a (i + 1) -> k < m_nnz a -> body k s = Ok (g s (cin a k, vln a k))) ->
  for_ (rpn a i) (rpn a (i + 1)) body s = Ok (fold_left g (crs_row a i) s).
Proof.
  intros W Hi Hb.
  rewrite (@for_pure S _ _ (fun k s => g s (cin a k, vln a k))).
  - unfold crs_row. f_equal.
    generalize (seq (rpn a i) (rpn a (i + 1) - rpn a i)). intros l. revert s.
    induction l as [|k l IH]; intros s; cbn; auto.
  - intros k s1 Hk. apply Hb; auto.
    assert (rpn a (i + 1) <= m_nnz a) by (apply rp_le_nnz; auto; lia). lia.
Qed.

(** row i of the entries *)
Lemma filter_row_other n i l : n <> i ->
  filter (fun t : triple => fst (fst t) =? i) (map (fun p => (n, fst p, snd p)) l) = [].
Proof.
  intros H. induction l as [|p l IH]; cbn; auto.
  destruct (Nat.eqb_spec n i); [lia|]. auto.
Qed.
Lemma filter_row_same i l :
  filter (fun t : triple => fst (fst t) =? i) (map (fun p => (i, fst p, snd p)) l) = map (fun p => (i, fst p, snd p)) l.
Proof. induction l as [|p l IH]; cbn; auto. rewrite Nat.eqb_refl, IH. auto. Qed.

Lemma pre_entries_filter (a : crs F) n i :
  filter (fun t => fst (fst t) =? i) (pre_entries a n) =
  if i <? n then map (fun p => (i, fst p, snd p)) (crs_row a i) else [].
Proof.
  induction n as [|n IH]; auto.
  rewrite pre_entries_S, filter_app, IH.
  destruct (Nat.eq_dec n i) as [->|Hne].
  - rewrite filter_row_same. destruct (Nat.ltb_spec i i); [lia|].
    destruct (Nat.ltb_spec i (S i)); [|lia]. auto.
  - rewrite filter_row_other by auto. rewrite app_nil_r.
    destruct (Nat.ltb_spec i n); destruct (Nat.ltb_spec i (S n)); auto; lia.
Qed.

Lemma crs_entries_filter (a : crs F) i : i < m_row a ->
  filter (fun t => fst (fst t) =? i) (crs_entries a) = map (fun p => (i, fst p, snd p)) (crs_row a i).
Proof.
  intros H. rewrite crs_entries_pre, pre_entries_filter.
  now rewrite (proj2 (Nat.ltb_lt _ _) H).
Qed.

End CrsProof.
