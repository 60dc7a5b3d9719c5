(** * CrsMiscProof: comparison, structure hash, element views, counterexamples for CRS *)
From Coq Require Import NArith Ring.
From Verif Require Import Base Scalar Spec SumFacts Loops DenseModel CooModel Observe CooProof CooSortProof
  CooMiscProof CrsModel CrsObserve CrsProof CrsSimProof CrsBlasProof CrsBlas2Proof CrsConvProof
  CrsTransProof CrsMatmulProof.
Set Implicit Arguments.

Lemma filter_twice {A} (p : A -> bool) l : filter p (filter p l) = filter p l.
Proof. induction l as [|a l IH]; auto. cbn. destruct (p a) eqn:E; cbn; [rewrite E|]; now rewrite ?IH. Qed.

Lemma filter_disjoint {A} (p q : A -> bool) l : (forall a, In a l -> q a = true -> p a = false) -> filter p (filter q l) = [].
Proof.
  induction l as [|a l IH]; auto. cbn. intros H. destruct (q a) eqn:E; cbn; [rewrite (H a) by auto|]; apply IH; auto.
Qed.

Section CrsMisc.
Context {F : Type} {SF : Scalar F} {SC : Schedule}.
Local Notation triple := (nat * nat * F)%type.
Local Notation D := (0, 0, f0).

(** *** equal *)
Theorem crs_equal_ok (a b : crs F) :
  crs_ok a -> crs_ok b -> m_first a = 0 -> m_first b = 0 -> m_nnz a = m_nnz b -> m_nnz a <= m_row a + 1 ->
  exists r, crs_equal a b = Ok r /\
    (r = true <-> m_row a = m_row b /\ m_col a = m_col b /\
      (forall k, k < m_nnz a -> feqb (vln b k) (vln a k) = true /\ cin b k = cin a k /\ rpn b k = rpn a k)).
Proof.
  intros Wa Wb Fa Fb Hn Hr. unfold crs_equal.
  destruct (Nat.eqb_spec (m_row a) (m_row b)) as [Er|Er]; cbn [negb].
  2:{ exists false. split; auto. split; [discriminate|]. intros [? _]. lia. }
  destruct (Nat.eqb_spec (m_col a) (m_col b)) as [Ec|Ec]; cbn [negb].
  2:{ exists false. split; auto. split; [discriminate|]. intros (_ & ? & _). lia. }
  pose proof Wa as (A1 & _ & _ & _ & A5 & _ & A7 & A8). pose proof Wb as (B1 & _ & _ & _ & B5 & _ & B7 & B8).
  destruct (@vequalF_ok F SF (m_nnz a) (m_val a) (m_val b)) as (e1 & -> & H1); try lia. cbn [bind].
  destruct (@vequalI_ok (m_nnz a) (m_ci a) (m_ci b)) as (e2 & -> & H2); try lia.
  destruct (@vequalI_ok (m_nnz a) (m_rp a) (m_rp b)) as (e3 & -> & H3); try lia.
  exists (e1 && e2 && e3). split; [destruct e1, e2, e3; reflexivity|].
  rewrite !andb_true_iff, H1, H2, H3. unfold vln, cin, rpn. rewrite Fa, Fb. cbn [Nat.add].
  split.
  - intros [[G1 G2] G3]. repeat split; auto.
  - intros (_ & _ & G). repeat split; intros i Hi; apply G; auto.
Qed.

Lemma vequalI_self_ub n (l : list nat) : length l < n -> vequalI n l l = UB.
Proof.
  intros H. unfold vequalI.
  destruct (@for0_inv _ (fun k ans => ans = true) (length l)
    (fun i ans => p <- rd l i ;; q <- rd l i ;; Ok (ans && (p =? q))) true) as (r & E & Hr); auto.
  { intros i ans Hi ->. rewrite (@rd_lt nat l i 0) by lia. cbn [bind]. rewrite Nat.eqb_refl. eauto. }
  eapply for_ub_hit with (mid := length l); [lia| |].
  - etransitivity; [|exact E]. apply for_ext. intros i s Hi. rewrite (@rd_lt nat l i 0) by lia. cbn [bind].
    now rewrite Nat.eqb_refl, andb_true_r.
  - rewrite rd_ge by lia. reflexivity.
Qed.

(** A == A reads past the end of row_ptr whenever nnz > rows + 1 *)
Theorem crs_equal_self_ub (a : crs F) : crs_ok a -> m_first a = 0 -> m_row a + 1 < m_nnz a ->
  (forall k, k < m_nnz a -> feqb (vln a k) (vln a k) = true) ->
  crs_equal a a = UB.
Proof.
  intros Wa Fa Hr Hv. unfold crs_equal. rewrite !Nat.eqb_refl. cbn [negb].
  pose proof Wa as (A1 & _ & _ & _ & A5 & _ & A7 & A8).
  destruct (@vequalF_ok F SF (m_nnz a) (m_val a) (m_val a)) as (e1 & -> & H1); try lia. cbn [bind].
  destruct (@vequalI_ok (m_nnz a) (m_ci a) (m_ci a)) as (e2 & -> & H2); try lia.
  assert (e1 = true) as ->.
  { apply H1. intros i Hi. specialize (Hv i Hi). unfold vln in Hv. now rewrite Fa in Hv. }
  assert (e2 = true) as -> by (apply H2; auto).
  cbn [negb bind]. rewrite vequalI_self_ub; auto. lia.
Qed.

(** *** hash *)
Lemma vhash_val n s s' : s = s' -> vhash n s = vhash n s'.
Proof. now intros ->. Qed.

Lemma crs_of_arrays_struct M N NNZ rp ci (v : list F) a :
  crs_of_arrays M N NNZ rp ci v = Ok a ->
  m_row a = M /\ m_col a = N /\ m_hash a = vhash NNZ (vhash (M + 1) (N.of_nat M)).
Proof.
  unfold crs_of_arrays. intros H. apply bind_ok in H. destruct H as (a1 & E1 & H).
  apply bind_ok in H. destruct H as (rp' & E2 & H). apply bind_ok in H. destruct H as (ci' & E3 & H).
  apply bind_ok in H. destruct H as (v' & E4 & H). injection H as <-. msimpl. split; auto. split; auto.
  assert (L : forall (src dst dst' : list nat) n, vcopyA n src dst = Ok dst' -> length dst' = length dst).
  { intros src dst dst' n. unfold vcopyA.
    enough (G : forall n lo dst, iter_ n lo (fun i t => x <- rd src i ;; wr t i x) dst = Ok dst' -> length dst' = length dst)
      by apply G.
    induction n0 as [|k IH]; intros lo d E; cbn in E; [injection E as <-; auto|].
    apply bind_ok in E. destruct E as (d1 & Ed & E). apply bind_ok in Ed. destruct Ed as (x & _ & Ed).
    apply wr_inv in Ed. destruct Ed as [_ ->]. apply IH in E. now rewrite upd_length in E. }
  apply L in E2, E3.
  assert (G : m_rp a1 = repeat 0 (M + 1) /\ m_ci a1 = repeat 0 NNZ).
  { unfold crs_resize in E1. revert E1. msimpl.
    match goal with |- (if ?b then _ else _) = _ -> _ => destruct b end; intros E1.
    - apply bind_ok in E1. destruct E1 as (w & _ & E1). injection E1 as <-. auto.
    - apply bind_ok in E1. destruct E1 as (w & _ & E1). apply bind_ok in E1. destruct E1 as (w2 & _ & E1).
      injection E1 as <-. auto. }
  destruct G as [G1 G2]. rewrite E2, E3, G1, G2, !repeat_length. reflexivity.
Qed.

(** CRS objects of the same shape and number of entries are always "the same structure" *)
Theorem crs_same_structure_blind M N NNZ rp ci (v : list F) rp' ci' v' a b :
  crs_of_arrays M N NNZ rp ci v = Ok a -> crs_of_arrays M N NNZ rp' ci' v' = Ok b ->
  crs_same_structure a b = true.
Proof.
  intros Ha Hb. apply crs_of_arrays_struct in Ha, Hb. destruct Ha as (A1 & A2 & A3), Hb as (B1 & B2 & B3).
  unfold crs_same_structure. rewrite A1, A2, A3, B1, B2, B3, N.eqb_refl, !Nat.eqb_refl. reflexivity.
Qed.

Lemma crs_same_structure_dims (a b : crs F) : crs_same_structure a b = true ->
  m_row a = m_row b /\ m_col a = m_col b /\ m_hash a = m_hash b.
Proof.
  unfold crs_same_structure. destruct (N.eqb_spec (m_hash a) (m_hash b)); cbn [negb]; [|discriminate].
  rewrite andb_true_iff, !Nat.eqb_eq. tauto.
Qed.

(** *** element view of the entry-wise maps *)
Lemma map_fst_map_val g (ts : list triple) : map fst (map_val g ts) = map fst ts.
Proof. unfold map_val. rewrite map_map. apply map_ext. auto. Qed.

Lemma last_wins_map_val g (ts : list triple) i j :
  last_wins (map_val g ts) i j = if existsb (fun t => (fst (fst t) =? i) && (snd (fst t) =? j)) ts
                                 then g i j (last_wins ts i j) else f0.
Proof.
  induction ts as [|[[r c] v] ts IH]; auto. cbn [map_val map last_wins fst snd existsb].
  fold (map_val g ts).
  assert (E : existsb (fun t : triple => (fst (fst t) =? i) && (snd (fst t) =? j)) (map_val g ts) =
              existsb (fun t : triple => (fst (fst t) =? i) && (snd (fst t) =? j)) ts).
  { clear. induction ts as [|[[r c] v] ts IH]; auto. cbn [map_val map existsb fst snd]. now rewrite <- IH. }
  rewrite E. destruct (existsb _ ts) eqn:EB.
  - rewrite IH, orb_true_r. auto.
  - rewrite orb_false_r. destruct (Nat.eqb_spec r i), (Nat.eqb_spec c j); cbn [andb]; subst; auto.
Qed.
End CrsMisc.

(** an OpenMP schedule distributes every iteration to exactly one thread *)
Definition sched_valid (SC : Schedule) : Prop := forall n, Permutation (concat (@sched SC n)) (seq 0 n).
Definition one_thread : Schedule := fun n => [seq 0 n].
Definition two_threads : Schedule := fun n => [seq 0 (n / 2); seq (n / 2) (n - n / 2)].

Lemma one_thread_valid : sched_valid one_thread.
Proof. intros n. unfold sched, one_thread. cbn. now rewrite app_nil_r. Qed.
Lemma two_threads_valid : sched_valid two_threads.
Proof.
  intros n. unfold sched, two_threads. cbn [concat]. rewrite app_nil_r.
  assert (n / 2 <= n) by (apply Nat.div_le_upper_bound; lia).
  pose proof (seq_app (n / 2) (n - n / 2) 0) as E. cbn [Nat.add] in E. rewrite <- E.
  now replace (n / 2 + (n - n / 2)) with n by lia.
Qed.

Lemma hash_schedule :
  exists a b, @crs_of_arrays Z Zscalar one_thread 1 1 1 [0;1] [0] [1%Z] = Ok a /\
    @crs_of_arrays Z Zscalar two_threads 1 1 1 [0;1] [0] [1%Z] = Ok b /\ m_hash a <> m_hash b /\
    crs_same_structure a b = false.
Proof.
  do 2 eexists. split; [vm_compute; reflexivity|]. split; [vm_compute; reflexivity|].
  split; [vm_compute; discriminate|vm_compute; reflexivity].
Qed.
