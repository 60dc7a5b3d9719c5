(** * CrsBlasProof: matvec, matvec_T, getvec, scal/times, diag_op on CRS *)
From Coq Require Import Ring.
From Verif Require Import Base Scalar Spec SumFacts Loops DenseModel CooModel Observe CooProof CooSortProof
  CooMiscProof CrsModel CrsObserve CrsProof.
Set Implicit Arguments.

Lemma map_nth_list {A} (d : A) (f : nat -> A) n l :
  length l = n -> (forall i, i < n -> nth i l d = f i) -> l = map f (seq 0 n).
Proof.
  intros HL H. apply list_ext with (d := d).
  - now rewrite map_length, seq_length.
  - intros i Hi. rewrite nth_map_seq by lia. apply H. lia.
Qed.

Section CrsBlas.
Context {F : Type} {SF : Scalar F} {SC : Schedule}.
Local Notation triple := (nat * nat * F)%type.
Local Notation D := (0, 0, f0).


Lemma crs_matvec_ok (alpha beta : F) (A : crs F) (x y : list F) :
  crs_ok A -> length x = m_col A -> length y = m_row A ->
  crs_matvec_core alpha A x beta y false = Ok (map (fun i => row_dot (crs_row A i) x) (seq 0 (m_row A))).
Proof.
  intros W Hx Hy. unfold crs_matvec_core.
  rewrite Hx, Hy, !Nat.eqb_refl. cbn [assert_ bind].
  destruct (@elem_loop F f0 (fun i _ => row_dot (crs_row A i) x) 0 (m_row A) 0
    (fun i y => lo <- rd (m_rp A) i ;; hi <- rd (m_rp A) (i + 1) ;;
      ytmp <- for_ lo hi (fun j t =>
        v <- rd (m_val A) (m_first A + j) ;; c <- rd (m_ci A) j ;; xc <- rd x c ;;
        Ok (fadd t (fmul v xc))) f0 ;;
      wr y i ytmp) y) as (y' & E & HL & HN); try lia.
  - intros i y' Hi HL. rewrite !rd_rp by (auto; lia). cbn [bind].
    rewrite (@crs_row_fold F SF F (fun t p => fadd t (fmul (snd p) (fn x (fst p))))); auto; try lia.
    + cbn [bind]. apply wr_lt. lia.
    + intros k t Hk Hn. rewrite rd_val, rd_ci by auto. cbn [bind].
      rewrite (@rd_lt F x (cin A k) f0) by (rewrite Hx; apply cin_lt; auto). reflexivity.
  - rewrite E. f_equal. apply map_nth_list with (d := f0); [lia|].
    intros i Hi. rewrite HN. cbn [Nat.add]. rewrite (proj2 (Nat.leb_le _ _)), (proj2 (Nat.ltb_lt _ _)) by lia.
    cbn [andb]. now rewrite Nat.sub_0_r.
Qed.

Lemma crs_matvec_badsize (A : crs F) (x y : list F) :
  length x <> m_col A \/ length y <> m_row A -> crs_matvec A x y = Abort.
Proof.
  intros H. unfold crs_matvec, crs_matvec_core.
  destruct (Nat.eqb_spec (m_row A) (length y)); cbn [assert_ bind]; auto.
  destruct (Nat.eqb_spec (m_col A) (length x)); cbn [assert_ bind]; auto. lia.
Qed.

Lemma crs_matvec_T_badsize (A : crs F) (x y : list F) :
  length x <> m_row A \/ length y <> m_col A -> crs_matvec_T A x y = Abort.
Proof.
  intros H. unfold crs_matvec_T, crs_matvec_core.
  destruct (Nat.eqb_spec (m_row A) (length x)); cbn [assert_ bind]; auto.
  destruct (Nat.eqb_spec (m_col A) (length y)); cbn [assert_ bind]; auto. lia.
Qed.


Lemma ent_col_snoc ts (t : triple) c :
  ent_col (ts ++ [t]) c = ent_col ts c ++ (if snd (fst t) =? c then [(fst (fst t), snd t)] else []).
Proof.
  unfold ent_col. rewrite filter_app, map_app. cbn [filter]. destruct (snd (fst t) =? c); auto.
Qed.

Lemma row_dot_snoc l p x : row_dot (l ++ [p]) x = fadd (row_dot l x) (fmul (snd p) (fn x (fst p))).
Proof. unfold row_dot. now rewrite fold_left_app. Qed.

Lemma crs_matvec_T_ok (A : crs F) (x y : list F) :
  crs_ok A -> length x = m_row A -> length y = m_col A ->
  crs_matvec_T A x y = Ok (map (fun c => row_dot (ent_col (crs_entries A) c) x) (seq 0 (m_col A))).
Proof.
  intros W Hx Hy. unfold crs_matvec_T, crs_matvec_core.
  rewrite Hx, !Nat.eqb_refl, Hy, !Nat.eqb_refl. cbn [assert_ bind].
  rewrite <- Hy at 1. rewrite zero_fill. cbn [bind]. rewrite Hy.
  destruct (@crs_nest_inv F SF (list F) (fun k w => length w = m_col A /\
     forall c, c < m_col A -> nth c w f0 = row_dot (ent_col (firstn k (crs_entries A)) c) x)
    A (m_row A) (fun i j y => c <- rd (m_ci A) j ;; yc <- rd y c ;;
        v <- rd (m_val A) (m_first A + j) ;; xi <- rd x i ;;
        wr y c (fadd yc (fmul v xi))) (repeat f0 (m_col A))) as (w & E & HL & HN); auto.
  - split; [now rewrite repeat_length|]. intros c Hc. now rewrite nth_repeat.
  - intros i k w Hi Hk Hn HE [HL HN]. pose proof (cin_lt W Hn) as Hc.
    rewrite rd_ci by auto. cbn [bind].
    rewrite (@rd_lt F w _ f0) by lia. cbn [bind]. rewrite rd_val by auto. cbn [bind].
    rewrite (@rd_lt F x _ f0) by lia. cbn [bind]. rewrite wr_lt by lia.
    eexists; split; [reflexivity|]. split; [now rewrite upd_length|].
    intros c Hcc. rewrite (@firstn_S_nth _ _ _ D) by (rewrite crs_entries_length; auto).
    rewrite HE, ent_col_snoc. cbn [fst snd].
    destruct (Nat.eqb_spec (cin A k) c) as [->|Hne].
    + rewrite nth_upd_same by lia. rewrite row_dot_snoc, HN by auto. reflexivity.
    + rewrite nth_upd_other by auto. rewrite app_nil_r. auto.
  - unfold crs_nest in E. rewrite E. f_equal. apply map_nth_list with (d := f0); auto.
    intros c Hc. rewrite HN by auto.
    assert (Hr : rpn A (m_row A) = m_nnz A) by apply W.
    rewrite Hr, firstn_all2; auto. rewrite crs_entries_length; auto.
Qed.

Section Exact.
Context (Hex : exact SF).
Let Hrt : ring_theory f0 f1 fadd fmul fsub fopp (@eq F) := Hex.
Add Ring Fring2 : Hrt.

Lemma row_dot_exact l x : row_dot l x = fold_right (fun p t => fadd (fmul (snd p) (fn x (fst p))) t) f0 l.
Proof. unfold row_dot. rewrite (fold_add_acc Hex (fun p : nat * F => fmul (snd p) (fn x (fst p)))). ring. Qed.

Lemma fold_right_map {A B C} (g : A -> B) (f : B -> C -> C) l z :
  fold_right f z (map g l) = fold_right (fun p t => f (g p) t) z l.
Proof. induction l as [|a l IH]; cbn; auto. now rewrite IH. Qed.

Lemma row_dot_mv (A : crs F) x i : crs_ok A -> i < m_row A ->
  row_dot (crs_row A i) x = mv (m_col A) (summed (crs_entries A)) (fn x) i.
Proof.
  intros W Hi. rewrite row_dot_exact, (mv_summed Hex (fn x) i (crs_in_range W)), wrow_filter.
  rewrite crs_entries_filter by auto. rewrite fold_right_map. reflexivity.
Qed.

Lemma col_dot_mv (A : crs F) x c : crs_ok A ->
  row_dot (ent_col (crs_entries A) c) x = mv (m_row A) (fun j i => summed (crs_entries A) i j) (fn x) c.
Proof.
  intros W. rewrite row_dot_exact, (mvT_summed Hex (fn x) c (crs_in_range W)), wcol_filter.
  unfold ent_col. rewrite fold_right_map. reflexivity.
Qed.

End Exact.

(** ** structure-preserving value updates *)

(** [crs_ok] and the entries only depend on the structure and on the values in the window *)
Lemma crs_set_val_ok (A : crs F) v : crs_ok A -> length v = length (m_val A) -> crs_ok (m_set_val A v).
Proof.
  intros (H1 & H2 & H3 & H4 & H5 & H6 & H7 & H8) HL. unfold crs_ok. repeat split; auto.
  msimpl. lia.
Qed.

Lemma pre_entries_count (A : crs F) n m : n <= m ->
  filter (fun t => fst (fst t) <? n) (pre_entries A m) = pre_entries A n.
Proof.
  assert (G1 : forall n i (l : list (nat * F)), i < n ->
     filter (fun t : triple => fst (fst t) <? n) (map (fun p => (i, fst p, snd p)) l) = map (fun p => (i, fst p, snd p)) l).
  { intros n0 i l Hi. induction l as [|p l IH]; cbn [map filter fst]; auto.
    rewrite (proj2 (Nat.ltb_lt _ _) Hi), IH. auto. }
  assert (G2 : forall n i (l : list (nat * F)), n <= i ->
     filter (fun t : triple => fst (fst t) <? n) (map (fun p => (i, fst p, snd p)) l) = []).
  { intros n0 i l Hi. induction l as [|p l IH]; cbn [map filter fst]; auto.
    rewrite (proj2 (Nat.ltb_ge _ _) Hi), IH. auto. }
  intros H. induction H as [|m H IH].
  - assert (G : forall k, k <= n -> filter (fun t => fst (fst t) <? n) (pre_entries A k) = pre_entries A k).
    { induction k as [|k IHk]; intros Hk; auto. rewrite pre_entries_S, filter_app, IHk, G1 by lia. auto. }
    apply G. lia.
  - rewrite pre_entries_S, filter_app, IH, G2 by lia. apply app_nil_r.
Qed.

Lemma filter_map {A B} (g : A -> B) (p : B -> bool) l : filter p (map g l) = map g (filter (fun a => p (g a)) l).
Proof. induction l as [|a l IH]; cbn; auto. destruct (p (g a)); cbn; now rewrite IH. Qed.

Lemma rpn_count (A : crs F) n : crs_ok A -> n <= m_row A ->
  rpn A n = length (filter (fun p : nat * nat => fst p <? n) (map fst (crs_entries A))).
Proof.
  intros W H. rewrite filter_map, map_length, crs_entries_pre.
  change (fun a : triple => fst (fst a) <? n) with (fun t : triple => fst (fst t) <? n).
  rewrite pre_entries_count by auto. symmetry. now apply pre_entries_length.
Qed.

Lemma same_pattern_rp (A C : crs F) : crs_ok A -> crs_ok C -> same_pattern A C ->
  m_rp A = m_rp C /\ m_nnz A = m_nnz C /\ forall k, k < m_nnz A -> cin A k = cin C k.
Proof.
  intros WA WC (H1 & H2 & H3).
  assert (HR : forall i, i <= m_row A -> rpn A i = rpn C i).
  { intros i Hi. rewrite !rpn_count by (auto; lia). now rewrite H3. }
  assert (HN : m_nnz A = m_nnz C).
  { rewrite <- (crs_entries_length WA), <- (crs_entries_length WC), <- (map_length fst), H3, map_length. auto. }
  split; [|split; auto].
  - apply list_ext with (d := 0).
    + destruct WA as (-> & _), WC as (-> & _). lia.
    + intros i Hi. apply HR. destruct WA as (E & _). lia.
  - intros k Hk. destruct (crs_entries_ex WA Hk) as (i & Hi & Hr & E1).
    assert (E2 : nth k (crs_entries C) D = (i, cin C k, vln C k)).
    { apply crs_entries_nth; auto; [lia|]. rewrite <- !HR by lia. auto. }
    assert (E : nth k (map fst (crs_entries A)) (0,0) = nth k (map fst (crs_entries C)) (0,0)) by (now rewrite H3).
    change (0, 0) with (fst (0, 0, @f0 F SF)) in E. rewrite !map_nth in E.
    rewrite E1, E2 in E. cbn [fst] in E. congruence.
Qed.

(** entries of a matrix C of A's pattern whose k-th value is [g (row k) (col k) (k-th value of A)] *)
Lemma pre_entries_map (A C : crs F) v (g : nat -> nat -> F -> F) n :
  crs_ok A -> crs_ok C -> same_pattern A C -> n <= m_row A ->
  (forall i k, i < m_row A -> rpn A i <= k < rpn A (i + 1) ->
     nth (m_first C + k) v f0 = g i (cin A k) (vln A k)) ->
  pre_entries (m_set_val C v) n = map (fun t => (fst t, g (fst (fst t)) (snd (fst t)) (snd t))) (pre_entries A n).
Proof.
  intros W WC HP Hn H. destruct (same_pattern_rp W WC HP) as (E1 & E2 & E3).
  induction n as [|n IH]; auto.
  rewrite !pre_entries_S, map_app, IH by lia. f_equal.
  unfold crs_row. rewrite !map_map.
  assert (ER : forall i, rpn (m_set_val C v) i = rpn A i) by (intros; unfold rpn; msimpl; now rewrite E1).
  rewrite !ER.
  apply map_ext_in. intros k Hk%in_seq. cbn [fst snd].
  change (cin (m_set_val C v) k) with (cin C k).
  change (vln (m_set_val C v) k) with (nth (m_first C + k) v f0).
  rewrite (H n k) by lia.
  assert (rpn A (n + 1) <= m_nnz A) by (apply rp_le_nnz; auto; lia).
  rewrite E3 by lia. auto.
Qed.

Lemma crs_entries_map (A C : crs F) v (g : nat -> nat -> F -> F) :
  crs_ok A -> crs_ok C -> same_pattern A C ->
  (forall i k, i < m_row A -> rpn A i <= k < rpn A (i + 1) ->
     nth (m_first C + k) v f0 = g i (cin A k) (vln A k)) ->
  crs_entries (m_set_val C v) = map (fun t => (fst t, g (fst (fst t)) (snd (fst t)) (snd t))) (crs_entries A).
Proof.
  intros W WC HP H. rewrite !crs_entries_pre. msimpl.
  destruct HP as (HR & HP). rewrite <- HR. apply pre_entries_map; auto. split; auto.
Qed.

Lemma same_pattern_refl (A : crs F) : same_pattern A A.
Proof. repeat split. Qed.

(** nested loop in which entry (i,k) rewrites value slot k of the output buffer from its old
    contents, when selected *)
Lemma crs_nest_upd (A : crs F) n off (g : nat -> nat -> F -> F) (body : nat -> nat -> list F -> res (list F)) v :
  crs_ok A -> n <= m_row A -> off + m_nnz A <= length v ->
  (forall i k w, i < n -> rpn A i <= k < rpn A (i + 1) -> k < m_nnz A -> length w = length v ->
     exists w', body i k w = Ok w' /\ length w' = length v /\
       forall q, nth q w' f0 = if q =? off + k then g i k (nth q w f0) else nth q w f0) ->
  exists w, crs_nest A n body v = Ok w /\ length w = length v /\
    (forall i k, i < n -> rpn A i <= k < rpn A (i + 1) -> nth (off + k) w f0 = g i k (nth (off + k) v f0)) /\
    (forall q, (q < off \/ off + rpn A n <= q) -> nth q w f0 = nth q v f0).
Proof.
  intros W Hn Hlen Hb.
  destruct (@crs_nest_inv F SF (list F) (fun k w => length w = length v /\
     (forall i k', i < n -> rpn A i <= k' < rpn A (i + 1) -> k' < k -> nth (off + k') w f0 = g i k' (nth (off + k') v f0)) /\
     (forall q, (q < off \/ off + k <= q) -> nth q w f0 = nth q v f0)) A n body v) as (w & E & HL & H1 & H2); auto.
  - repeat split; auto. intros; lia.
  - intros i k w Hi Hk Hkn _ (HL & H1 & H2).
    destruct (Hb i k w) as (w' & E & HL' & HN); auto.
    exists w'. split; auto. split; auto. split.
    + intros i' k' Hi' Hk' Hlt. rewrite HN. destruct (Nat.eqb_spec (off + k') (off + k)) as [Hkk|Hkk].
      * assert (k' = k) by lia. subst k'.
        assert (i' = i).
        { destruct (Nat.lt_trichotomy i i') as [?|[?|?]]; auto.
          - assert (rpn A (i + 1) <= rpn A i') by (apply rp_mono; auto; lia). lia.
          - assert (rpn A (i' + 1) <= rpn A i) by (apply rp_mono; auto; lia). lia. }
        subst. rewrite H2 by lia. auto.
      * apply H1; auto. lia.
    + intros q Hq. rewrite HN. destruct (Nat.eqb_spec q (off + k)); [lia|]. apply H2. lia.
  - exists w. split; auto. split; auto. split; auto.
    intros i k Hi Hk. apply H1; auto.
    assert (rpn A (i + 1) <= rpn A n) by (apply rp_mono; auto; lia). lia.
Qed.


Lemma wr_upd_fact (w : list F) off k (x : F) : off + k < length w ->
  exists w', wr w (off + k) x = Ok w' /\ length w' = length w /\
    forall q, nth q w' f0 = if q =? off + k then x else nth q w f0.
Proof.
  intros H. rewrite wr_lt by auto. eexists; split; [reflexivity|]. split; [now rewrite upd_length|].
  intros q. destruct (Nat.eqb_spec q (off + k)) as [->|Hne].
  - now rewrite nth_upd_same.
  - now rewrite nth_upd_other by auto.
Qed.

(** loops over k < nnz writing slot (first C + k) from slot k of A *)
Lemma crs_flat_ok (A C : crs F) (g : nat -> F -> F) (body : nat -> list F -> res (list F)) (h : nat -> nat -> F -> F) :
  crs_ok A -> crs_ok C -> same_pattern A C ->
  (forall k w, k < m_nnz A -> length w = length (m_val C) ->
     body k w = Ok (upd w (m_first C + k) (g k (nth (m_first C + k) w f0)))) ->
  (forall i k, i < m_row A -> rpn A i <= k < rpn A (i + 1) -> k < m_nnz A ->
     g k (vln C k) = h i (cin A k) (vln A k)) ->
  exists v, for_ 0 (m_nnz A) body (m_val C) = Ok v /\ crs_ok (m_set_val C v) /\
    crs_entries (m_set_val C v) = map_val h (crs_entries A).
Proof.
  intros W WC HP HB HG. destruct (same_pattern_rp W WC HP) as (_ & En & _).
  pose proof WC as (_ & _ & _ & _ & _ & _ & HL & HA).
  destruct (@elem_loop F f0 g 0 (m_nnz A) (m_first C) body (m_val C)) as (v & E & HLv & HN); try lia.
  { intros k w Hk Hw. apply HB; auto. lia. }
  exists v. split; auto. split; [apply crs_set_val_ok; auto|].
  apply crs_entries_map; auto. intros i k Hi Hk.
  assert (rpn A (i + 1) <= m_nnz A) by (apply rp_le_nnz; auto; lia).
  rewrite HN, (proj2 (Nat.leb_le _ _)), (proj2 (Nat.ltb_lt _ _)) by lia. cbn [andb].
  replace (m_first C + k - m_first C) with k by lia. apply HG; auto. lia.
Qed.

Theorem crs_scal_ok (alpha : F) (A : crs F) : crs_ok A ->
  exists A', crs_scal alpha A = Ok A' /\ crs_ok A' /\ m_row A' = m_row A /\ m_col A' = m_col A /\
    crs_entries A' = map_val (fun _ _ v => fmul v alpha) (crs_entries A).
Proof.
  intros W. unfold crs_scal. pose proof W as (_ & _ & _ & _ & _ & _ & HL & HA).
  destruct (@crs_flat_ok A A (fun _ v => fmul v alpha)
    (fun i v => p <- rd v (m_first A + i) ;; wr v (m_first A + i) (fmul p alpha))
    (fun _ _ v => fmul v alpha)) as (v & E & W' & HE); auto using same_pattern_refl.
  - intros k w Hk Hw. rewrite (@rd_lt F w _ f0) by lia. cbn [bind]. apply wr_lt. lia.
  - rewrite E. cbn [bind]. exists (m_set_val A v). auto.
Qed.

Theorem crs_times_ok (alpha : F) (A C : crs F) :
  crs_ok A -> crs_ok C -> same_pattern A C -> crs_same_structure A C = true ->
  exists C', crs_times alpha A C = Ok C' /\ crs_ok C' /\ m_row C' = m_row A /\ m_col C' = m_col A /\
    crs_entries C' = map_val (fun _ _ v => fmul v alpha) (crs_entries A).
Proof.
  intros W WC HP HS. unfold crs_times. rewrite HS. cbn [assert_ bind].
  pose proof WC as (_ & _ & _ & _ & _ & _ & HL & HA).
  destruct (same_pattern_rp W WC HP) as (_ & En & _).
  destruct (@crs_flat_ok A C (fun k _ => fmul (vln A k) alpha)
    (fun i v => p <- rd (m_val A) (m_first A + i) ;; wr v (m_first C + i) (fmul p alpha))
    (fun _ _ v => fmul v alpha)) as (v & E & W' & HE); auto.
  - intros k w Hk Hw. rewrite rd_val by auto. cbn [bind]. apply wr_lt. lia.
  - rewrite E. cbn [bind]. exists (m_set_val C v). destruct HP as (-> & -> & _). auto.
Qed.

Theorem crs_blas_copy_ok (A C : crs F) :
  crs_ok A -> crs_ok C -> same_pattern A C -> crs_same_structure A C = true ->
  exists C', crs_blas_copy A C = Ok C' /\ crs_ok C' /\ m_row C' = m_row A /\ m_col C' = m_col A /\
    crs_entries C' = crs_entries A.
Proof.
  intros W WC HP HS. unfold crs_blas_copy.
  replace (crs_same_size A C) with true
    by (destruct HP as (E1 & E2 & _); unfold crs_same_size; rewrite E1, E2, !Nat.eqb_refl; auto).
  rewrite HS. cbn [assert_ bind].
  pose proof WC as (_ & _ & _ & _ & _ & _ & HL & HA).
  destruct (same_pattern_rp W WC HP) as (_ & En & _).
  destruct (@crs_flat_ok A C (fun k _ => vln A k)
    (fun i v => p <- rd (m_val A) (m_first A + i) ;; wr v (m_first C + i) p)
    (fun _ _ v => v)) as (v & E & W' & HE); auto.
  - intros k w Hk Hw. rewrite rd_val by auto. cbn [bind]. apply wr_lt. lia.
  - rewrite E. cbn [bind]. exists (m_set_val C v). split; auto. split; auto.
    split; [destruct HP as (-> & _); auto|]. split; [destruct HP as (_ & -> & _); auto|].
    rewrite HE. unfold map_val. rewrite <- (map_id (crs_entries A)) at 2. apply map_ext. now intros [].
Qed.

(** row-wise loops writing C's slot k *)
Lemma crs_nest_map (A C : crs F) (h : nat -> nat -> F -> F) body :
  crs_ok A -> crs_ok C -> same_pattern A C ->
  (forall i k w, i < m_row A -> rpn A i <= k < rpn A (i + 1) -> k < m_nnz A -> length w = length (m_val C) ->
     body i k w = wr w (m_first C + k) (h i (cin A k) (vln A k))) ->
  exists v, crs_nest A (m_row A) body (m_val C) = Ok v /\ crs_ok (m_set_val C v) /\
    crs_entries (m_set_val C v) = map_val h (crs_entries A).
Proof.
  intros W WC HP HB. destruct (same_pattern_rp W WC HP) as (_ & En & _).
  pose proof WC as (_ & _ & _ & _ & _ & _ & HL & HA).
  destruct (@crs_nest_upd A (m_row A) (m_first C) (fun i k _ => h i (cin A k) (vln A k)) body (m_val C))
    as (v & E & HLv & HN & _); auto; try lia.
  { intros i k w Hi Hk Hkn Hw. rewrite HB by auto.
    destruct (@wr_upd_fact w (m_first C) k (h i (cin A k) (vln A k))) as (w' & E & G1 & G2); [lia|].
    exists w'. split; auto. split; [lia|]. auto. }
  exists v. split; auto. split; [apply crs_set_val_ok; auto|].
  apply crs_entries_map; auto.
Qed.

Theorem crs_times_row_ok (A C : crs F) (x : list F) :
  crs_ok A -> crs_ok C -> same_pattern A C -> crs_same_structure A C = true -> length x = m_col A ->
  exists C', crs_times_row A x C = Ok C' /\ crs_ok C' /\ m_row C' = m_row A /\ m_col C' = m_col A /\
    crs_entries C' = map_val (fun _ j v => fmul v (fn x j)) (crs_entries A).
Proof.
  intros W WC HP HS Hx. unfold crs_times_row. rewrite HS, Hx, Nat.eqb_refl. cbn [assert_ bind].
  destruct (@crs_nest_map A C (fun _ j v => fmul v (fn x j)) (fun _ j v =>
        p <- rd (m_val A) (m_first A + j) ;; c <- rd (m_ci A) j ;; xc <- rd x c ;;
        wr v (m_first C + j) (fmul p xc))) as (v & E & W' & HE); auto.
  - intros i k w Hi Hk Hkn Hw. rewrite rd_val, rd_ci by auto. cbn [bind].
    rewrite (@rd_lt F x _ f0) by (rewrite Hx; apply cin_lt; auto). reflexivity.
  - unfold crs_nest in E. rewrite E. cbn [bind]. exists (m_set_val C v). destruct HP as (-> & -> & _). auto.
Qed.

Theorem crs_times_col_ok (A C : crs F) (x : list F) :
  crs_ok A -> crs_ok C -> same_pattern A C -> crs_same_structure A C = true -> length x = m_row A ->
  exists C', crs_times_col A x C = Ok C' /\ crs_ok C' /\ m_row C' = m_row A /\ m_col C' = m_col A /\
    crs_entries C' = map_val (fun i _ v => fmul v (fn x i)) (crs_entries A).
Proof.
  intros W WC HP HS Hx. unfold crs_times_col. rewrite HS, Hx, Nat.eqb_refl. cbn [assert_ bind].
  destruct (@crs_nest_map A C (fun i _ v => fmul v (fn x i)) (fun i j v =>
        p <- rd (m_val A) (m_first A + j) ;; xi <- rd x i ;;
        wr v (m_first C + j) (fmul p xi))) as (v & E & W' & HE); auto.
  - intros i k w Hi Hk Hkn Hw. rewrite rd_val by auto. cbn [bind].
    rewrite (@rd_lt F x _ f0) by lia. reflexivity.
  - unfold crs_nest in E. rewrite E. cbn [bind]. exists (m_set_val C v). destruct HP as (-> & -> & _). auto.
Qed.

(** matadd / matsub *)
Theorem crs_matop_ok op (A B C : crs F) :
  crs_ok A -> crs_ok B -> crs_ok C -> same_pattern A B -> same_pattern A C ->
  crs_same_structure A B = true -> crs_same_structure A C = true ->
  exists C', crs_matop op A B C = Ok C' /\ crs_ok C' /\ m_row C' = m_row A /\ m_col C' = m_col A /\
    crs_entries C' = map (fun ab => (fst (fst ab), op (snd (fst ab)) (snd (snd ab))))
                         (combine (crs_entries A) (crs_entries B)).
Proof.
  intros W WB WC HPB HP HSB HS. unfold crs_matop.
  replace (crs_same_size A B) with true
    by (destruct HPB as (E1 & E2 & _); unfold crs_same_size; rewrite E1, E2, !Nat.eqb_refl; auto).
  replace (crs_same_size A C) with true
    by (destruct HP as (E1 & E2 & _); unfold crs_same_size; rewrite E1, E2, !Nat.eqb_refl; auto).
  rewrite HS, HSB. cbn [assert_ andb bind].
  pose proof WC as (_ & _ & _ & _ & _ & _ & HL & HA).
  destruct (same_pattern_rp W WC HP) as (EC1 & EnC & EC3).
  destruct (same_pattern_rp W WB HPB) as (EB1 & EnB & EB3).
  destruct (@elem_loop F f0 (fun k _ => op (vln A k) (vln B k)) 0 (m_nnz A) (m_first C)
    (fun i v => p <- rd (m_val A) (m_first A + i) ;; q <- rd (m_val B) (m_first B + i) ;;
         wr v (m_first C + i) (op p q)) (m_val C)) as (v & E & HLv & HN); try lia.
  { intros k w Hk Hw. rewrite rd_val by (auto; lia). cbn [bind]. rewrite rd_val by (auto; lia). cbn [bind].
    apply wr_lt. lia. }
  rewrite E. cbn [bind]. exists (m_set_val C v). split; auto.
  assert (W' : crs_ok (m_set_val C v)) by (apply crs_set_val_ok; auto).
  split; auto. split; [destruct HP as (-> & _); auto|]. split; [destruct HP as (_ & -> & _); auto|].
  apply list_ext with (d := (fst (fst (D, D)), op (snd (fst (D, D))) (snd (snd (D, D))))).
  - rewrite map_length, combine_length, !crs_entries_length by auto. msimpl. lia.
  - intros k Hk. rewrite crs_entries_length in Hk by auto. msimpl.
    cbn [m_nnz m_set_val] in Hk.
    rewrite (map_nth (fun ab : triple * triple => (fst (fst ab), op (snd (fst ab)) (snd (snd ab))))).
    rewrite combine_nth by (rewrite !crs_entries_length by auto; lia).
    assert (HkA : k < m_nnz A) by lia.
    destruct (crs_entries_ex W HkA) as (i & Hi & Hr & EA). rewrite EA.
    assert (ER : forall i, rpn C i = rpn A i) by (intros; unfold rpn; now rewrite EC1).
    assert (EB : nth k (crs_entries B) D = (i, cin B k, vln B k)).
    { apply crs_entries_nth; auto.
      - destruct HPB as (<- & _). auto.
      - unfold rpn in *. rewrite <- EB1. auto. }
    rewrite EB. cbn [fst snd].
    rewrite nth_indep with (d' := D) by (rewrite crs_entries_length by auto; cbn [m_nnz m_set_val]; lia).
    rewrite (@crs_entries_nth F SF (m_set_val C v) i); auto.
    + change (cin (m_set_val C v) k) with (cin C k).
      change (vln (m_set_val C v) k) with (nth (m_first C + k) v f0).
      rewrite HN, (proj2 (Nat.leb_le _ _)), (proj2 (Nat.ltb_lt _ _)) by lia. cbn [andb].
      replace (m_first C + k - m_first C) with k by lia. rewrite EC3 by lia. auto.
    + msimpl. destruct HP as (<- & _). auto.
    + change (rpn (m_set_val C v)) with (rpn C). rewrite !ER. auto.
Qed.

Lemma summed_map2 (op : F -> F -> F) (l k : list triple) i j :
  op f0 f0 = f0 -> (forall a b c d, fadd (op a b) (op c d) = op (fadd a c) (fadd b d)) ->
  map fst l = map fst k ->
  summed (map (fun ab => (fst (fst ab), op (snd (fst ab)) (snd (snd ab)))) (combine l k)) i j =
  op (summed l i j) (summed k i j).
Proof.
  intros H0 H. revert k. induction l as [|[[r c] v] l IH]; intros [|[[r' c'] v'] k] E; cbn in E; try discriminate.
  - now cbn.
  - inversion E; subst. cbn [combine map summed fst snd]. rewrite IH by auto.
    destruct ((r' =? i) && (c' =? j)); auto.
Qed.

End CrsBlas.
