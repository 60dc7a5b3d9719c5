(** * CrsBlas2Proof: single row/column products, diag_op, row/col/diag extraction on CRS *)
From Verif Require Import Base Scalar Spec SumFacts Loops DenseModel CooModel Observe CooProof CooSortProof
  CooMiscProof CrsModel CrsObserve CrsProof CrsBlasProof.
Set Implicit Arguments.

Section CrsBlas2.
Context {F : Type} {SF : Scalar F} {SC : Schedule}.
Local Notation triple := (nat * nat * F)%type.
Local Notation D := (0, 0, f0).


Lemma crs_entries_map2 (A C : crs F) v (h : nat -> nat -> F -> F -> F) :
  crs_ok A -> crs_ok C -> same_pattern A C -> length v = length (m_val C) ->
  (forall i k, i < m_row A -> rpn A i <= k < rpn A (i + 1) ->
     nth (m_first C + k) v f0 = h i (cin A k) (vln A k) (vln C k)) ->
  crs_entries (m_set_val C v) = map2_val h (crs_entries A) (crs_entries C).
Proof.
  intros W WC HP HLv HN.
  destruct (same_pattern_rp W WC HP) as (EC1 & EnC & EC3).
  assert (W' : crs_ok (m_set_val C v)) by (apply crs_set_val_ok; auto).
  set (FF := fun ab : triple * triple => (fst (fst ab), h (fst (fst (fst ab))) (snd (fst (fst ab))) (snd (fst ab)) (snd (snd ab)))).
  unfold map2_val. fold FF.
  apply list_ext with (d := FF (D, D)).
  - rewrite map_length, combine_length, !crs_entries_length by auto. msimpl. lia.
  - intros k Hk. rewrite crs_entries_length in Hk by auto. cbn [m_nnz m_set_val] in Hk.
    rewrite (map_nth FF).
    rewrite combine_nth by (rewrite !crs_entries_length by auto; lia).
    assert (HkA : k < m_nnz A) by lia.
    destruct (crs_entries_ex W HkA) as (i & Hi & Hr & EA). rewrite EA.
    assert (ER : forall i, rpn C i = rpn A i) by (intros; unfold rpn; now rewrite EC1).
    assert (EB : nth k (crs_entries C) D = (i, cin C k, vln C k)).
    { apply crs_entries_nth; auto.
      - destruct HP as (<- & _). auto.
      - rewrite !ER. auto. }
    rewrite EB. unfold FF. cbn [fst snd].
    rewrite nth_indep with (d' := D) by (rewrite crs_entries_length by auto; cbn [m_nnz m_set_val]; lia).
    rewrite (@crs_entries_nth F SF (m_set_val C v) i); auto.
    + change (cin (m_set_val C v) k) with (cin C k).
      change (vln (m_set_val C v) k) with (nth (m_first C + k) v f0).
      rewrite (HN i k) by auto. rewrite EC3 by lia. auto.
    + msimpl. destruct HP as (<- & _). auto.
    + change (rpn (m_set_val C v)) with (rpn C). rewrite !ER. auto.
Qed.

Lemma map2_val_same h (ts : list triple) (g : nat -> nat -> F -> F) :
  (forall i j v, h i j v v = g i j v) -> map2_val h ts ts = map_val g ts.
Proof.
  intros H. unfold map2_val, map_val. induction ts as [|t ts IH]; cbn; auto. rewrite IH, H. auto.
Qed.

(** *** times_row(A, num, x, C), times_col(A, num, x, C) *)
Theorem crs_times_row_line_ok (A C : crs F) num (x : list F) :
  crs_ok A -> crs_ok C -> same_pattern A C -> crs_same_structure A C = true -> length x = m_col A ->
  num < m_row A ->
  exists C', crs_times_row_line A num x C = Ok C' /\ crs_ok C' /\ m_row C' = m_row A /\ m_col C' = m_col A /\
    crs_entries C' = map2_val (fun i j v old => if i =? num then fmul v (fn x j) else old)
                       (crs_entries A) (crs_entries C).
Proof.
  intros W WC HP HS Hx Hnum. unfold crs_times_row_line. rewrite HS, Hx, Nat.eqb_refl.
  rewrite (proj2 (Nat.leb_le _ _)) by lia. cbn [assert_ bind].
  rewrite !rd_rp by (auto; lia). cbn [bind].
  destruct (same_pattern_rp W WC HP) as (EC1 & EnC & EC3).
  pose proof WC as (_ & _ & _ & _ & _ & _ & HL & HA).
  assert (Hm : rpn A num <= rpn A (num + 1)) by (apply rp_mono; auto; lia).
  assert (Hm2 : rpn A (num + 1) <= m_nnz A) by (apply rp_le_nnz; auto; lia).
  destruct (@elem_loop F f0 (fun k _ => fmul (vln A k) (fn x (cin A k))) (rpn A num) (rpn A (num + 1)) (m_first C)
    (fun j v => p <- rd (m_val A) (m_first A + j) ;; c <- rd (m_ci A) j ;; xc <- rd x c ;;
        wr v (m_first C + j) (fmul p xc)) (m_val C)) as (v & E & HLv & HN); try lia.
  { intros k w Hk Hw. rewrite rd_val, rd_ci by (auto; lia). cbn [bind].
    rewrite (@rd_lt F x _ f0) by (rewrite Hx; apply cin_lt; auto; lia). cbn [bind]. apply wr_lt. lia. }
  rewrite E. cbn [bind]. exists (m_set_val C v). split; auto.
  split; [apply crs_set_val_ok; auto|]. split; [destruct HP as (-> & _); auto|]. split; [destruct HP as (_ & -> & _); auto|].
  apply crs_entries_map2; auto. intros i k Hi Hk. rewrite HN.
  destruct (Nat.eqb_spec i num) as [->|Hne].
  - rewrite (proj2 (Nat.leb_le _ _)), (proj2 (Nat.ltb_lt _ _)) by lia. cbn [andb].
    replace (m_first C + k - m_first C) with k by lia. auto.
  - assert (k < rpn A num \/ rpn A (num + 1) <= k) as [?|?].
    { destruct (Nat.lt_ge_cases i num).
      - assert (rpn A (i + 1) <= rpn A num) by (apply rp_mono; auto; lia). lia.
      - assert (rpn A (num + 1) <= rpn A i) by (apply rp_mono; auto; lia). lia. }
    + rewrite (proj2 (Nat.leb_gt _ _)) by lia. auto.
    + destruct (Nat.ltb_spec (m_first C + k) (m_first C + rpn A (num + 1))); [lia|].
      rewrite andb_false_r. auto.
Qed.

Lemma crs_times_row_line_edge (A C : crs F) (x : list F) :
  crs_ok A -> crs_same_structure A C = true -> length x = m_col A ->
  crs_times_row_line A (m_row A) x C = UB.
Proof.
  intros W HS Hx. unfold crs_times_row_line. rewrite HS, Hx, Nat.eqb_refl, Nat.leb_refl. cbn [assert_ bind].
  rewrite rd_rp by (auto; lia). cbn [bind]. rewrite rd_ge; auto. destruct W as (-> & _). lia.
Qed.

Theorem crs_times_col_line_ok (A C : crs F) num (x : list F) :
  crs_ok A -> crs_ok C -> same_pattern A C -> crs_same_structure A C = true -> length x = m_row A ->
  num <= m_col A ->
  exists C', crs_times_col_line A num x C = Ok C' /\ crs_ok C' /\ m_row C' = m_row A /\ m_col C' = m_col A /\
    crs_entries C' = map2_val (fun i j v old => if j =? num then fmul v (fn x i) else old)
                       (crs_entries A) (crs_entries C).
Proof.
  intros W WC HP HS Hx Hnum. unfold crs_times_col_line. rewrite HS, Hx, Nat.eqb_refl.
  rewrite (proj2 (Nat.leb_le _ _)) by lia. cbn [assert_ bind].
  destruct (same_pattern_rp W WC HP) as (EC1 & EnC & EC3).
  pose proof WC as (_ & _ & _ & _ & _ & _ & HL & HA).
  destruct (@crs_nest_upd F SF A (m_row A) (m_first C) (fun i k old => if cin A k =? num then fmul (vln A k) (fn x i) else old)
     (fun i j v => c <- rd (m_ci A) j ;;
        if c =? num then
          p <- rd (m_val A) (m_first A + j) ;; xi <- rd x i ;; wr v (m_first C + j) (fmul p xi)
        else Ok v) (m_val C)) as (v & E & HLv & HN & _); auto; try lia.
  { intros i k w Hi Hk Hkn Hw. rewrite rd_ci by auto. cbn [bind].
    destruct (Nat.eqb_spec (cin A k) num).
    - rewrite rd_val by auto. cbn [bind]. rewrite (@rd_lt F x _ f0) by lia. cbn [bind].
      destruct (@wr_upd_fact F SF w (m_first C) k (fmul (vln A k) (nth i x f0))) as (w' & E & G1 & G2); [lia|].
      exists w'. split; [exact E|]. split; [lia|exact G2].
    - exists w. split; auto. split; auto. intros q. destruct (q =? m_first C + k); auto. }
  unfold crs_nest in E. rewrite E. cbn [bind]. exists (m_set_val C v). split; auto.
  split; [apply crs_set_val_ok; auto|]. split; [destruct HP as (-> & _); auto|]. split; [destruct HP as (_ & -> & _); auto|].
  apply crs_entries_map2; auto.
Qed.

(** *** diag_op *)
Theorem crs_diag_scalar_ok op (A : crs F) alpha : crs_ok A -> m_first A = 0 ->
  exists A', crs_diag_scalar op A alpha = Ok A' /\ crs_ok A' /\ m_row A' = m_row A /\ m_col A' = m_col A /\
    crs_entries A' = map_val (fun i j v => if i =? j then op v alpha else v) (crs_entries A).
Proof.
  intros W Hf. unfold crs_diag_scalar. pose proof W as (_ & _ & _ & _ & _ & _ & HL & HA).
  destruct (@crs_nest_upd F SF A (m_row A) (m_first A) (fun i k old => if i =? cin A k then op old alpha else old)
     (fun i j v => c <- rd (m_ci A) j ;;
        if i =? c then p <- rd v j ;; wr v j (op p alpha) else Ok v) (m_val A)) as (v & E & HLv & HN & _); auto; try lia.
  { intros i k w Hi Hk Hkn Hw. rewrite rd_ci by auto. cbn [bind].
    destruct (Nat.eqb_spec i (cin A k)).
    - rewrite (@rd_lt F w _ f0) by lia. cbn [bind]. rewrite Hf in *. cbn [Nat.add] in *.
      destruct (@wr_upd_fact F SF w 0 k (op (nth k w f0) alpha)) as (w' & E & G1 & G2); [lia|].
      cbn [Nat.add] in *.
      exists w'. split; auto. split; [lia|]. intros q. rewrite G2.
      destruct (Nat.eqb_spec q k); subst; auto.
    - exists w. split; [reflexivity|]. split; [exact Hw|]. intros q. destruct (q =? m_first A + k); auto. }
  unfold crs_nest in E. rewrite E. cbn [bind]. exists (m_set_val A v). split; auto.
  split; [apply crs_set_val_ok; auto|]. split; auto. split; auto.
  apply crs_entries_map; auto using same_pattern_refl.
Qed.

Theorem crs_diag_vector_ok op (A : crs F) vec : crs_ok A -> m_first A = 0 ->
  length vec = Nat.min (m_row A) (m_col A) ->
  exists A', crs_diag_vector op A vec = Ok A' /\ crs_ok A' /\ m_row A' = m_row A /\ m_col A' = m_col A /\
    crs_entries A' = map_val (fun i j v => if i =? j then op v (fn vec i) else v) (crs_entries A).
Proof.
  intros W Hf Hv. unfold crs_diag_vector. pose proof W as (_ & _ & _ & _ & _ & _ & HL & HA).
  replace (if m_row A <? m_col A then m_row A else m_col A) with (Nat.min (m_row A) (m_col A))
    by (destruct (Nat.ltb_spec (m_row A) (m_col A)); lia).
  set (n := Nat.min (m_row A) (m_col A)) in *. rewrite Hv, Nat.eqb_refl. cbn [assert_ bind].
  destruct (@crs_nest_upd F SF A n (m_first A) (fun i k old => if i =? cin A k then op old (fn vec i) else old)
     (fun i j v => c <- rd (m_ci A) j ;;
        if i =? c then p <- rd v j ;; q <- rd vec i ;; wr v j (op p q) else Ok v) (m_val A)) as (v & E & HLv & HN & HO); auto; try lia.
  { intros i k w Hi Hk Hkn Hw. rewrite rd_ci by auto. cbn [bind].
    destruct (Nat.eqb_spec i (cin A k)).
    - rewrite (@rd_lt F w _ f0) by lia. cbn [bind]. rewrite (@rd_lt F vec _ f0) by lia. cbn [bind].
      rewrite Hf in *. cbn [Nat.add] in *.
      destruct (@wr_upd_fact F SF w 0 k (op (nth k w f0) (nth i vec f0))) as (w' & E & G1 & G2); [lia|].
      cbn [Nat.add] in *.
      exists w'. split; auto. split; [lia|]. intros q. rewrite G2.
      destruct (Nat.eqb_spec q k); subst; auto.
    - exists w. split; [reflexivity|]. split; [exact Hw|]. intros q. destruct (q =? m_first A + k); auto. }
  unfold crs_nest in E. rewrite E. cbn [bind]. exists (m_set_val A v). split; auto.
  split; [apply crs_set_val_ok; auto|]. split; auto. split; auto.
  apply crs_entries_map; auto using same_pattern_refl.
  intros i k Hi Hk. destruct (Nat.lt_ge_cases i n) as [Hin|Hin]; [now apply HN|].
  rewrite HO.
  - assert (Hkn : k < m_nnz A).
    { assert (rpn A (i + 1) <= m_nnz A) by (apply rp_le_nnz; auto; lia). lia. }
    pose proof (cin_lt W Hkn). destruct (Nat.eqb_spec i (cin A k)); auto. lia.
  - right. assert (rpn A n <= rpn A i) by (apply rp_mono; auto; lia). lia.
Qed.

(** *** extraction *)
Lemma last_wins_filter_row (ts : list triple) i j :
  last_wins (filter (fun t => fst (fst t) =? i) ts) i j = last_wins ts i j.
Proof.
  induction ts as [|[[r c] v] ts IH] using rev_ind; auto.
  rewrite filter_app. cbn [filter fst]. rewrite last_wins_snoc, <- IH.
  destruct (Nat.eqb_spec r i); cbn [andb].
  - rewrite last_wins_snoc. subst. rewrite Nat.eqb_refl. auto.
  - now rewrite app_nil_r.
Qed.

Lemma firstn_pre (A : crs F) n : crs_ok A -> n <= m_row A ->
  firstn (rpn A n) (crs_entries A) = pre_entries A n.
Proof.
  intros W Hn. rewrite crs_entries_pre.
  assert (G : forall m, n <= m -> exists l, pre_entries A m = pre_entries A n ++ l).
  { intros m H. induction H as [|m H (l & IH)].
    - exists []. now rewrite app_nil_r.
    - rewrite pre_entries_S, IH, <- app_assoc. eauto. }
  destruct (G (m_row A) Hn) as (l & ->).
  rewrite <- (pre_entries_length W Hn), firstn_app, Nat.sub_diag, firstn_all. cbn. apply app_nil_r.
Qed.

Lemma crs_elem_pre (A : crs F) n i j : i < n -> n <= m_row A ->
  last_wins (pre_entries A n) i j = crs_elem A i j.
Proof.
  intros H Hn. unfold crs_elem. rewrite <- (last_wins_filter_row (pre_entries A n)), <- (last_wins_filter_row (crs_entries A)).
  rewrite crs_entries_pre, !pre_entries_filter.
  rewrite !(proj2 (Nat.ltb_lt _ _)) by lia. auto.
Qed.

Lemma crs_elem_row (A : crs F) i j : i < m_row A ->
  last_wins (map (fun p => (i, fst p, snd p)) (crs_row A i)) i j = crs_elem A i j.
Proof. intros H. unfold crs_elem. rewrite <- (last_wins_filter_row (crs_entries A)), crs_entries_filter; auto. Qed.

(** diag/col: rows 0..n-1, entry (i,k) overwrites slot i if its column is [tgt i] *)
Lemma crs_pick (A : crs F) n (tgt : nat -> nat) body vec :
  crs_ok A -> n <= m_row A -> length vec = n ->
  (forall i k w, i < n -> k < m_nnz A -> rpn A i <= k < rpn A (i + 1) -> length w = n ->
     body i k w = if cin A k =? tgt i then wr w i (vln A k) else Ok w) ->
  (w <- for_ 0 n (fun i w => wr w i f0) vec ;; crs_nest A n body w) =
  Ok (map (fun i => crs_elem A i (tgt i)) (seq 0 n)).
Proof.
  intros W Hn Hv HB. rewrite <- Hv at 1. rewrite zero_fill. cbn [bind].
  destruct (@crs_nest_inv F SF (list F) (fun k w => length w = n /\
     forall i, i < n -> nth i w f0 = last_wins (firstn k (crs_entries A)) i (tgt i)) A n body (repeat f0 (length vec)))
    as (w & E & HL & HN); auto.
  - rewrite Hv. split; [now rewrite repeat_length|]. intros i Hi. now rewrite nth_repeat.
  - intros i k w Hi Hk Hkn HE [HL HN]. rewrite HB by auto.
    assert (HS : forall r, r < n -> last_wins (firstn (S k) (crs_entries A)) r (tgt r) =
       if (i =? r) && (cin A k =? tgt r) then vln A k else last_wins (firstn k (crs_entries A)) r (tgt r)).
    { intros r Hr. rewrite (@firstn_S_nth _ _ _ D) by (rewrite crs_entries_length; auto).
      rewrite HE, last_wins_snoc. auto. }
    destruct (Nat.eqb_spec (cin A k) (tgt i)) as [He|He].
    + rewrite wr_lt by lia. eexists; split; [reflexivity|]. split; [now rewrite upd_length|].
      intros r Hr. rewrite HS by auto. destruct (Nat.eqb_spec i r) as [<-|Hne].
      * rewrite nth_upd_same by lia. rewrite He, Nat.eqb_refl. auto.
      * rewrite nth_upd_other by auto. cbn [andb]. auto.
    + exists w. split; auto. split; auto. intros r Hr. rewrite HS by auto.
      destruct (Nat.eqb_spec i r) as [<-|Hne]; cbn [andb]; auto.
      destruct (Nat.eqb_spec (cin A k) (tgt i)); [lia|auto].
  - rewrite E. f_equal. apply map_nth_list with (d := f0); auto.
    intros i Hi. rewrite HN by auto. rewrite firstn_pre by auto. now apply crs_elem_pre.
Qed.

Theorem crs_diag_ok (A : crs F) vec : crs_ok A -> m_first A = 0 -> length vec = Nat.min (m_row A) (m_col A) ->
  crs_diag A vec = Ok (map (fun i => crs_elem A i i) (seq 0 (Nat.min (m_row A) (m_col A)))).
Proof.
  intros W Hf Hv. unfold crs_diag.
  replace (if m_row A <? m_col A then m_row A else m_col A) with (Nat.min (m_row A) (m_col A))
    by (destruct (Nat.ltb_spec (m_row A) (m_col A)); lia).
  set (n := Nat.min (m_row A) (m_col A)) in *. rewrite Hv, Nat.eqb_refl. cbn [assert_ bind].
  apply (@crs_pick A n (fun i => i)); auto; [lia|].
  intros i k w Hi Hk Hr Hw. rewrite rd_ci by auto. cbn [bind].
  rewrite rd_val0 by auto. cbn [bind]. rewrite Nat.eqb_sym. auto.
Qed.

Theorem crs_getcol_ok (A : crs F) c vec : crs_ok A -> m_first A = 0 -> m_row A = m_col A ->
  length vec = m_row A -> crs_getcol A c vec = Ok (map (fun i => crs_elem A i c) (seq 0 (m_row A))).
Proof.
  intros W Hf Hsq Hv. unfold crs_getcol. rewrite <- Hsq, Hv, Nat.eqb_refl. cbn [assert_ bind].
  apply (@crs_pick A (m_row A) (fun i => c)); auto.
  intros i k w Hi Hk Hr Hw. rewrite rd_ci by auto. cbn [bind].
  rewrite rd_val0 by auto. cbn [bind]. rewrite Nat.eqb_sym. auto.
Qed.

Theorem crs_getrow_ok (A : crs F) r vec : crs_ok A -> m_first A = 0 -> m_row A = m_col A -> r < m_row A ->
  length vec = m_row A -> crs_getrow A r vec = Ok (map (fun j => crs_elem A r j) (seq 0 (m_col A))).
Proof.
  intros W Hf Hsq Hr Hv. unfold crs_getrow. rewrite Hv, Nat.eqb_refl. cbn [assert_ bind].
  rewrite <- Hv at 1. rewrite zero_fill. cbn [bind]. rewrite !rd_rp by (auto; lia). cbn [bind].
  assert (Hm : rpn A r <= rpn A (r + 1)) by (apply rp_mono; auto; lia).
  assert (Hm2 : rpn A (r + 1) <= m_nnz A) by (apply rp_le_nnz; auto; lia).
  set (ts := map (fun p => (r, fst p, snd p)) (crs_row A r)).
  assert (Hts : length ts = rpn A (r + 1) - rpn A r) by (unfold ts; now rewrite map_length, crs_row_length).
  destruct (@for_inv (list F) (fun k w => length w = m_col A /\
     forall j, j < m_col A -> nth j w f0 = last_wins (firstn (k - rpn A r) ts) r j) (rpn A r) (rpn A (r + 1))
     (fun j w => c <- rd (m_ci A) j ;; x <- rd (m_val A) j ;; wr w c x) (repeat f0 (length vec))) as (w & E & HL & HN); auto.
  - rewrite repeat_length, Nat.sub_diag. split; [lia|]. intros j Hj. rewrite nth_repeat by lia. auto.
  - intros k w Hk [HL HN]. rewrite rd_ci by (auto; lia). cbn [bind]. rewrite rd_val0 by (auto; lia). cbn [bind].
    assert (Hc : cin A k < m_col A) by (apply cin_lt; auto; lia).
    rewrite wr_lt by lia. eexists; split; [reflexivity|]. split; [now rewrite upd_length|].
    intros j Hj. replace (S k - rpn A r) with (S (k - rpn A r)) by lia.
    rewrite (@firstn_S_nth _ _ _ D) by lia.
    replace (nth (k - rpn A r) ts D) with (r, cin A k, vln A k).
    2:{ unfold ts, crs_row. rewrite map_map. cbn [fst snd]. rewrite nth_map_seq by lia. repeat f_equal; lia. }
    rewrite last_wins_snoc, Nat.eqb_refl. cbn [andb].
    destruct (Nat.eqb_spec (cin A k) j) as [<-|Hne].
    + now rewrite nth_upd_same by lia.
    + rewrite nth_upd_other by auto. auto.
  - rewrite E. f_equal. apply map_nth_list with (d := f0); auto.
    intros j Hj. rewrite HN by auto. rewrite firstn_all2 by lia. now apply crs_elem_row.
Qed.

End CrsBlas2.
