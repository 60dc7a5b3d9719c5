(** * TensorCrsProof3: copies, element-wise operations and exact sums of a tensor_CRS *)
From Coq Require Import NArith.
From Verif Require Import Base Scalar Spec SumFacts Loops DenseModel CooModel Observe CooProof CooSortProof CooMiscProof
  CrsModel CrsObserve CrsProof CrsBlasProof CrsSimProof CrsConvProof CrsMatmulProof TensorModel TensorSpec TensorProof
  Mem ReduceModel VecModel DenseBlasModel TensorBlasModel MemSpec TensorBlasProof ReshapeProof TensorCrsModel TensorCrsSpec TensorCrsProof
  TensorCrsProof2.
Set Implicit Arguments.

Lemma inside_last s n pos : inside (s ++ [n]) pos -> pos <> [] /\ last pos 0 < n.
Proof.
  intros H. apply inside_split in H. destruct H as [Ha Hb].
  rewrite <- (firstn_skipn (length s) pos). revert Hb. generalize (skipn (length s) pos). intros l Hb.
  inversion Hb as [|x ? p ? Hx Hp]; subst. inversion Hp; subst. rewrite last_last. split; auto.
  intros X. apply app_eq_nil in X. destruct X; discriminate.
Qed.

Section Ext.
Context {F : Type} {SF : Scalar F}.

Lemma slice_ext (X Y : crs F) (g : nat -> F -> F) : crs_readable X ->
  m_row Y = m_row X -> m_col Y = m_col X -> m_rp Y = m_rp X -> m_ci Y = m_ci X -> m_nnz Y = m_nnz X ->
  length (m_val Y) = m_alloc Y -> m_first Y + m_nnz X <= m_alloc Y ->
  (forall k, k < m_nnz X -> vln Y k = g (cin X k) (vln X k)) ->
  crs_readable Y /\ forall i, i < m_row X -> crs_row Y i = map (fun e => (fst e, g (fst e) (snd e))) (crs_row X i).
Proof.
  intros (B & HS & WB) H1 H2 H3 H4 H5 H6 H7 HV.
  pose proof HS as (S1 & S2 & S3 & S4 & S5 & S6 & S7 & S8 & S9).
  pose proof WB as (W1 & W2 & W3 & W4 & W5 & W6 & W7 & W8).
  set (Y' := m_set_rp Y (m_rp B)).
  assert (WY : crs_ok Y').
  { unfold crs_ok, Y', m_set_rp, rpn, cin; msimpl. unfold rpn, cin in *.
    rewrite H1, H2, H4, H5, S1, S2, S3, S6. repeat split; auto. rewrite <- S6; auto. }
  assert (HY : crs_sim Y Y').
  { unfold crs_sim, Y', m_set_rp, rpn; msimpl. rewrite H1, H3. unfold rpn in *. repeat split; auto; try lia. }
  split; [exists Y'; auto|].
  intros i Hi. rewrite (crs_sim_row HY) by lia. rewrite (crs_sim_row HS) by auto.
  unfold crs_row. rewrite map_map. cbn [fst snd]. unfold Y', m_set_rp.
  apply map_ext_in. intros k Hk. apply in_seq in Hk.
  assert (Hk' : k < m_nnz X).
  { rewrite S6. assert (rpn B (i + 1) <= m_nnz B) by (apply rp_le_nnz; auto; lia). lia. }
  assert (E1 : cin B k = cin X k) by (unfold cin; now rewrite S3).
  assert (E2 : vln B k = vln X k) by (unfold vln; now rewrite S4, S5).
  rewrite E1, E2. rewrite <- HV by auto. unfold cin, vln; msimpl. now rewrite H4.
Qed.

Lemma slice_row_lt (X : crs F) i e : crs_readable X -> i < m_row X -> In e (crs_row X i) -> fst e < m_col X.
Proof.
  intros (B & HS & WB) Hi He. rewrite (crs_sim_row HS) in He by auto.
  destruct HS as (S1 & S2 & _). unfold crs_row in He. apply in_map_iff in He. destruct He as (k & <- & Hk).
  apply in_seq in Hk. cbn [fst]. rewrite S2. apply cin_lt; auto.
  assert (rpn B (i + 1) <= m_nnz B) by (apply rp_le_nnz; auto; lia). lia.
Qed.

(** columns are within the last extent *)
Lemma tr_row_lt (A : tcrs F) p i e : tr_readable A -> inside (slices (k_shape A)) p -> i < n_rows (k_shape A) ->
  In e (tr_row A p i) -> fst e < n_cols (k_shape A).
Proof.
  intros (R1 & R2 & R3 & R4 & R5) Hp Hi He.
  apply (@slice_row_lt (tr_slice A (row_major (slices (k_shape A)) p)) i); auto.
  apply R5. now apply row_major_lt.
Qed.

Lemma row_fold_ext z w (l : list (nat * F)) b b' : (forall e, In e l -> b (fst e) = b' (fst e)) ->
  row_fold z w l b = row_fold z w l b'.
Proof.
  intros H. unfold row_fold. revert z. induction l as [|e l IH]; intros z; auto. cbn [fold_left].
  rewrite (H e) by now left. apply IH. intros. apply H. now right.
Qed.
Lemma row_dot_fold (l : list (nat * F)) x : row_dot l x = row_fold f0 (fun v => v) l (fn x).
Proof. reflexivity. Qed.

Lemma tr_off_le (A : tcrs F) d : d < length (k_cis A) -> tr_off A d + length (nth d (k_cis A) []) <= tr_off A (length (k_cis A)).
Proof.
  intros H. rewrite <- tr_off_S by auto. unfold tr_off.
  generalize (k_cis A) H. clear. intros l H.
  replace (length l) with (S d + (length l - S d)) by lia. generalize (length l - S d) as m. intros m.
  assert (E : forall m, list_sum (map (@length nat) (firstn (S d) l)) <= list_sum (map (@length nat) (firstn (S d + m) l))).
  { clear. intros m. rewrite <- (firstn_firstn l (S d + m) (S d)) || idtac.
    replace (firstn (S d) l) with (firstn (S d) (firstn (S d + m) l)) by (rewrite firstn_firstn; f_equal; lia).
    generalize (firstn (S d + m) l). intros k. rewrite <- (firstn_skipn (S d) k) at 2.
    rewrite map_app, list_sum_app. lia. }
  apply E.
Qed.

Lemma tr_nnz_le (A : tcrs F) : tr_readable A -> k_first A = 0 -> k_nnz A <= length (k_val A).
Proof.
  intros (R1 & R2 & R3 & R4 & R5) H0. rewrite <- R4, R3.
  destruct (prod (slices (k_shape A))) as [|n] eqn:EU; [cbn; lia|].
  rewrite tr_off_S by lia. destruct (R5 n) as (B & HS & WB); [lia|].
  destruct HS as (_ & _ & _ & S4 & S5 & S6 & _). destruct WB as (_ & _ & _ & _ & _ & _ & W7 & W8).
  cbn [tr_slice m_val m_first m_nnz] in *. rewrite S4. lia.
Qed.

Lemma tr_ext (A A' : tcrs F) (g : nat -> F -> F) : tr_readable A ->
  k_shape A' = k_shape A -> length (k_rps A') = length (k_rps A) -> k_cis A' = k_cis A -> k_nnz A' = k_nnz A ->
  (forall d, d < length (k_rps A) -> firstn (n_rows (k_shape A) + 1) (nth d (k_rps A') []) = firstn (n_rows (k_shape A) + 1) (nth d (k_rps A) [])) ->
  length (k_val A') = k_alloc A' -> k_first A' + k_nnz A <= k_alloc A' ->
  (forall d k, d < length (k_cis A) -> k < length (nth d (k_cis A) []) ->
     nth (k_first A' + tr_off A d + k) (k_val A') f0 = g (nth k (nth d (k_cis A) []) 0) (nth (k_first A + tr_off A d + k) (k_val A) f0)) ->
  tr_readable A' /\ forall p i, inside (slices (k_shape A)) p -> i < n_rows (k_shape A) ->
    tr_row A' p i = map (fun e => (fst e, g (fst e) (snd e))) (tr_row A p i).
Proof.
  intros (R1 & R2 & R3 & R4 & R5) H1 H2 H3 H4 H5 H6 H7 HV.
  assert (Hoff : forall d, tr_off A' d = tr_off A d) by (intros; unfold tr_off; now rewrite H3).
  assert (K : forall d, d < prod (slices (k_shape A)) -> crs_readable (tr_slice A' d) /\
    forall i, i < n_rows (k_shape A) -> crs_row (tr_slice A' d) i = map (fun e => (fst e, g (fst e) (snd e))) (crs_row (tr_slice A d) i)).
  { intros d Hd. apply (@slice_ext (tr_slice A d) (tr_slice A' d) g (R5 d Hd)); unfold tr_slice;
      cbn [m_row m_col m_rp m_ci m_val m_first m_nnz m_alloc]; rewrite ?H1, ?H3, ?Hoff; auto.
    - apply H5. lia.
    - assert (tr_off A d + length (nth d (k_cis A) []) <= tr_off A (length (k_cis A))) by (apply tr_off_le; lia). lia.
    - intros k Hk. unfold vln, cin. cbn [m_ci m_val m_first]. apply HV; auto. lia. }
  split.
  - unfold tr_readable. rewrite H1, H2, H3, H4, Hoff. repeat split; auto. intros d Hd. now apply K.
  - intros p i Hp Hi. unfold tr_row. rewrite H1. apply K; auto. now apply row_major_lt.
Qed.

Lemma map_id_row (l : list (nat * F)) : map (fun e => (fst e, snd e)) l = l.
Proof. induction l as [|[a b] l IH]; cbn; congruence. Qed.

(** resizing one array per slice *)
Lemma outer_loop (n : nat) (rps0 cis0 : list (list nat)) (R C : nat -> list nat -> list nat) (body : nat -> list (list nat) * list (list nat) -> res (list (list nat) * list (list nat))) :
  length rps0 = n -> length cis0 = n ->
  (forall i rps cis, i < n -> length rps = n -> length cis = n -> nth i rps [] = nth i rps0 [] -> nth i cis [] = nth i cis0 [] ->
     body i (rps, cis) = Ok (upd rps i (R i (nth i rps0 [])), upd cis i (C i (nth i cis0 [])))) ->
  exists rps cis, for_ 0 n body (rps0, cis0) = Ok (rps, cis) /\ length rps = n /\ length cis = n /\
    forall i, i < n -> nth i rps [] = R i (nth i rps0 []) /\ nth i cis [] = C i (nth i cis0 []).
Proof.
  intros H1 H2 HB.
  destruct (@for0_inv _ (fun i st => length (fst st) = n /\ length (snd st) = n /\
     (forall j, j < i -> nth j (fst st) [] = R j (nth j rps0 []) /\ nth j (snd st) [] = C j (nth j cis0 [])) /\
     (forall j, i <= j -> nth j (fst st) [] = nth j rps0 [] /\ nth j (snd st) [] = nth j cis0 [])) n body (rps0, cis0))
    as ([rps cis] & E & I1 & I2 & I3 & I4).
  - cbn [fst snd]. repeat split; auto; lia.
  - intros i [rps cis] Hi (I1 & I2 & I3 & I4). cbn [fst snd] in *.
    rewrite HB; auto; try apply I4; auto. eexists; split; [reflexivity|]. cbn [fst snd].
    rewrite !upd_length. split; auto. split; auto. split.
    + intros j Hj. destruct (Nat.eq_dec j i) as [->|].
      * now rewrite !nth_upd_same by lia.
      * rewrite !nth_upd_other by auto. apply I3. lia.
    + intros j Hj. rewrite !nth_upd_other by lia. apply I4. lia.
  - exists rps, cis. cbn [fst snd] in *. auto.
Qed.

Lemma tr_convert_tcrs_ok (t m : tcrs F) : tr_readable m -> k_first m = 0 -> tr_fresh t -> k_own t = true ->
  exists A, tr_convert_tcrs t m = Ok A /\ tr_readable A /\ k_shape A = k_shape m /\ k_nnz A = k_nnz m /\ k_first A = 0 /\
    k_own A = true /\ k_hash A = k_hash m /\ k_cis A = k_cis m /\
    (forall d, d < length (k_rps m) -> nth d (k_rps A) [] = nth d (k_rps m) [] ++ [0]) /\
    (forall i, i < k_nnz m -> nth i (k_val A) f0 = nth i (k_val m) f0) /\
    forall p i, inside (slices (k_shape m)) p -> i < n_rows (k_shape m) -> tr_row A p i = tr_row m p i.
Proof.
  intros HR H0 (T1 & T2 & T3 & T4 & T5) To. pose proof (tr_nnz_le HR H0) as Hnv.
  pose proof HR as (R1 & R2 & R3 & R4 & R5). unfold tr_convert_tcrs.
  destruct (@tr_resize_ok F SF t (k_nnz m) f0) as (t2 & E2 & B1 & B2 & B3 & B4 & B5 & B6 & B7 & B8 & B9); auto.
  rewrite E2. cbn [bind]. rewrite B7, B8, T4, T5.
  set (U := length (k_cis m)) in *.
  destruct (@outer_loop U (vresize [] [] (length (k_rps m))) (vresize [] [] U)
    (fun i r => vresize 0 r (length (nth i (k_rps m) []) + 1)) (fun i c => vresize 0 c (length (nth i (k_cis m) [])))
    (fun i st => let '(rps, cis) := st in
      c <- rd cis i ;; cm <- rd (k_cis m) i ;; cis <- wr cis i (vresize 0 c (length cm)) ;;
      r <- rd rps i ;; rm <- rd (k_rps m) i ;; rps <- wr rps i (vresize 0 r (length rm + 1)) ;;
      Ok (rps, cis))) as (rps & cis & EL & L1 & L2 & L3).
  - rewrite vresize_length. lia.
  - now rewrite vresize_length.
  - intros i rps cis Hi A1 A2 A3 A4.
    rewrite (@rd_lt _ cis i []), (@rd_lt _ (k_cis m) i []) by lia. cbn [bind]. rewrite wr_lt by lia. cbn [bind].
    rewrite (@rd_lt _ rps i []), (@rd_lt _ (k_rps m) i []) by lia. cbn [bind]. rewrite wr_lt by lia. cbn [bind].
    now rewrite A3, A4.
  - rewrite EL. cbn [bind]. clear EL.
    destruct (@outer_loop U rps cis (fun i _ => nth i (k_rps m) [] ++ [0]) (fun i _ => nth i (k_cis m) [])
      (fun i st => let '(rps, cis) := st in
        rm <- rd (k_rps m) i ;; r <- rd rps i ;; r <- vcopyA (length rm) rm r ;; rps <- wr rps i r ;;
        cm <- rd (k_cis m) i ;; c <- rd cis i ;; c <- vcopyA (length cm) cm c ;; cis <- wr cis i c ;;
        Ok (rps, cis))) as (rps' & cis' & EL' & L1' & L2' & L3'); auto.
    { intros i rps' cis' Hi A1 A2 A3 A4. destruct (L3 i Hi) as [L3a L3b].
      assert (V1 : nth i (vresize [] [] (length (k_rps m))) [] = @nil nat).
      { rewrite nth_vresize by lia. cbn [length Nat.ltb Nat.leb]. reflexivity. }
      assert (V2 : nth i (vresize [] [] U) [] = @nil nat).
      { rewrite nth_vresize by lia. cbn [length Nat.ltb Nat.leb]. reflexivity. }
      rewrite V1 in L3a. rewrite V2 in L3b.
      rewrite (@rd_lt _ (k_rps m) i []), (@rd_lt _ rps' i []) by lia. cbn [bind].
      rewrite A3, L3a. unfold vcopyA at 1. rewrite (@copy_loop0 nat 0) by (rewrite ?vresize_length; lia). cbn [bind].
      rewrite wr_lt by lia. cbn [bind].
      rewrite (@rd_lt _ (k_cis m) i []), (@rd_lt _ cis' i []) by lia. cbn [bind].
      rewrite A4, L3b. unfold vcopyA. rewrite (@copy_loop0 nat 0) by (rewrite ?vresize_length; lia). cbn [bind].
      rewrite wr_lt by lia. cbn [bind]. rewrite !firstn_all.
      rewrite (@skipn_all2 _ (length (nth i (k_cis m) []))) by (rewrite vresize_length; lia). rewrite app_nil_r.
      match goal with |- context[skipn ?a ?b] => assert (ET : skipn a b = [0]) end; [|now rewrite ET].
      apply list_ext with (d := 0); [rewrite skipn_length, vresize_length; cbn; lia|].
      intros k Hk. rewrite skipn_length, vresize_length in Hk. rewrite nth_skipn, nth_vresize by lia.
      destruct k; [|lia]. cbn [nth]. cbn [length]. destruct (Nat.ltb_spec (length (nth i (k_rps m) []) + 0) 0); auto. lia. }
    rewrite EL'. cbn [bind]. unfold vcopyA. rewrite (@copy_loop0 F f0) by lia. cbn [bind].
    eexists; split; [reflexivity|].
    match goal with |- tr_readable ?a /\ _ => set (A := a) end.
    assert (Hcis : k_cis A = k_cis m).
    { cbn. apply list_ext with (d := []); [exact L2'|]. intros i Hi. rewrite L2' in Hi. now apply L3'. }
    assert (Hrps : forall d, d < length (k_rps m) -> nth d (k_rps A) [] = nth d (k_rps m) [] ++ [0]).
    { intros d Hd. cbn. apply L3'. lia. }
    assert (Hvals : forall i, i < k_nnz m -> nth i (k_val A) f0 = nth i (k_val m) f0).
    { intros i Hi. cbn [A k_val]. rewrite app_nth1 by (rewrite firstn_length; lia). now rewrite nth_firstn. }
    destruct (@tr_ext m A (fun _ v => v) HR) as (RA & HRows); auto.
    + cbn. rewrite L1'. lia.
    + intros d Hd. rewrite Hrps by auto.
      rewrite firstn_app. replace (n_rows (k_shape m) + 1 - length (nth d (k_rps m) [])) with 0; [cbn [firstn]; apply app_nil_r|].
      destruct (R5 d) as (B & HS & WB); [lia|]. destruct HS as (_ & _ & _ & _ & _ & _ & S7 & _).
      cbn [tr_slice m_rp m_row] in S7. rewrite firstn_length in S7. lia.
    + cbn. rewrite app_length, firstn_length, skipn_length. lia.
    + cbn. lia.
    + intros d k Hd Hk. change (k_first A) with (k_first t2). rewrite B3, H0. cbn [Nat.add]. apply Hvals.
      pose proof (tr_off_le m Hd) as HT. fold U in HT. lia.
    + split; auto. split; auto. split; [exact B4|]. split; [exact B3|]. split; auto. split; auto. split; auto. split; auto. split; auto.
      intros p i Hp Hi. rewrite HRows by auto. apply map_id_row.
Qed.

Lemma tr_convert_crs_ok (t : tcrs F) (a : crs F) : crs_ok a -> m_first a = 0 -> length (m_ci a) = m_nnz a -> tr_fresh t -> k_own t = true ->
  exists A, tr_convert_crs t a = Ok A /\ tr_readable A /\ k_shape A = [m_row a; m_col a] /\ k_nnz A = m_nnz a /\
    k_hash A = Some (m_hash a) /\ (forall i, i < m_row a -> tr_row A [] i = crs_row a i).
Proof.
  intros W H0 HC (T1 & T2 & T3 & T4 & T5) To. pose proof W as (W1 & W2 & W3 & W4 & W5 & W6 & W7 & W8).
  unfold tr_convert_crs.
  destruct (@tr_resize_ok F SF t (m_nnz a) f0) as (t2 & E2 & B1 & B2 & B3 & B4 & B5 & B6 & B7 & B8 & B9); auto.
  rewrite E2. cbn [bind]. rewrite B7, B8, T4, T5.
  change (vresize [] [] 1) with [@nil nat]. cbn [rd nth_error bind]. unfold vcopyA.
  rewrite !(@copy_loop0 nat 0) by (rewrite ?vresize_length; lia). cbn [bind].
  cbn [rd nth_error bind].
  rewrite (@copy_loop0 F f0) by lia. cbn [bind].
  rewrite !firstn_all, !skipn_all2, !app_nil_r by (rewrite vresize_length; lia).
  eexists; split; [reflexivity|].
  match goal with |- tr_readable ?a /\ _ => set (A := a) end.
  assert (ES : tr_slice A 0 = mkCrs (m_row a) (m_col a) (m_rp a) (m_ci a) (k_val A) 0 (m_nnz a) (k_alloc A) true 0%N).
  { unfold tr_slice, tr_off, A. cbn [k_shape k_rps k_cis k_val k_first k_alloc n_rows n_cols length nth firstn map list_sum fold_right Nat.sub].
    rewrite B3, HC, Nat.add_0_r. rewrite <- W1, firstn_all. reflexivity. }
  assert (HV : length (k_val A) = k_alloc A /\ m_nnz a <= k_alloc A /\ forall k, k < m_nnz a -> nth k (k_val A) f0 = nth k (m_val a) f0).
  { cbn [A k_val k_alloc]. split; [rewrite app_length, firstn_length, skipn_length; lia|]. split; [lia|].
    intros k Hk. rewrite app_nth1 by (rewrite firstn_length; lia). now rewrite nth_firstn. }
  destruct HV as (V1 & V2 & V3).
  destruct (@slice_ext a (tr_slice A 0) (fun _ v => v)) as (RS & HRow); [now apply crs_ok_readable|..]; rewrite ?ES; cbn [m_row m_col m_rp m_ci m_nnz m_val m_alloc m_first]; auto.
  { intros k Hk. unfold vln. cbn [m_first m_val]. rewrite H0. cbn [Nat.add]. now apply V3. }
  split.
  - unfold tr_readable. cbn [A k_shape k_rps k_cis k_nnz length slices Nat.sub firstn prod]. repeat split; auto.
    + unfold tr_off; cbn. rewrite Nat.add_0_r. rewrite HC, <- B4. reflexivity.
    + intros d Hd. assert (d = 0) by lia. subst. exact RS.
  - split; auto. split; [exact B4|]. split; auto.
    intros i Hi. unfold tr_row. cbn [A k_shape length slices Nat.sub firstn row_major]. rewrite HRow by auto. apply map_id_row.
Qed.

End Ext.

(** ** sums in exact arithmetic *)
Section Exact.
Context {F : Type} {SF : Scalar F}.
Hypothesis Hex : exact SF.
Let Hrt : ring_theory f0 f1 fadd fmul fsub fopp (@eq F) := Hex.
Add Ring RX : Hrt.

Lemma sum_at_right ts pos : sum_at ts pos = fold_right (fun e t => fadd (if list_eq_dec Nat.eq_dec (fst e) pos then snd e else f0) t) f0 ts.
Proof.
  assert (K : forall a, fold_left (fun acc (e : list nat * F) => if list_eq_dec Nat.eq_dec (fst e) pos then fadd acc (snd e) else acc) ts a =
    fadd a (fold_right (fun e t => fadd (if list_eq_dec Nat.eq_dec (fst e) pos then snd e else f0) t) f0 ts)).
  { induction ts as [|e l IH]; intros a; cbn [fold_left fold_right]; [ring|].
    destruct (list_eq_dec Nat.eq_dec (fst e) pos); rewrite IH; ring. }
  unfold sum_at. rewrite K. ring.
Qed.

Lemma sum_at_notin ts pos : ~ In pos (map fst ts) -> sum_at ts pos = f0.
Proof.
  rewrite sum_at_right. induction ts as [|e l IH]; intros H; auto. cbn [fold_right]. destruct (list_eq_dec Nat.eq_dec (fst e) pos).
  - exfalso. apply H. left; auto.
  - rewrite IH; [ring|]. intros X. apply H. now right.
Qed.
Lemma sum_at_unique ts pos v : NoDup (map fst ts) -> In (pos, v) ts -> sum_at ts pos = v.
Proof.
  rewrite sum_at_right. induction ts as [|[q w] l IH]; intros HN Hin; [destruct Hin|].
  cbn [map fst] in HN. apply NoDup_cons_iff in HN. destruct HN as [HN1 HN2]. cbn [fold_right fst snd].
  destruct Hin as [E|Hin].
  - injection E as -> ->. destruct (list_eq_dec Nat.eq_dec pos pos); [|contradiction].
    rewrite <- sum_at_right, sum_at_notin by auto. ring.
  - destruct (list_eq_dec Nat.eq_dec q pos) as [->|].
    + exfalso. apply HN1. apply in_map_iff. exists (pos, v). auto.
    + rewrite IH by auto. ring.
Qed.

Lemma fold_add_shift (l : list (nat * F)) b y : fold_left (fun t p => fadd t (fmul (snd p) (b (fst p)))) l y =
    fadd y (fold_left (fun t p => fadd t (fmul (snd p) (b (fst p)))) l f0).
Proof. revert y. induction l as [|e l IH]; intros y; cbn [fold_left]; [ring|]. rewrite IH. rewrite (IH (fadd f0 _)). ring. Qed.
Lemma row_fold_exact z a (l : list (nat * F)) b :
  row_fold z (fun v => fmul a v) l b = fadd z (fmul a (row_fold f0 (fun v => v) l b)).
Proof.
  unfold row_fold. revert z. induction l as [|e l IH]; intros z; cbn [fold_left]; [ring|]. rewrite IH.
  rewrite (fold_add_shift l b (fadd f0 _)). ring.
Qed.

Lemma removelast_eq (q : list nat) p i k : q <> [] -> (q = p ++ [i; k] <-> removelast q = p ++ [i] /\ last q 0 = k).
Proof.
  intros Hq. destruct (exists_last Hq) as (q' & x & ->). rewrite removelast_last, last_last.
  change [i; k] with ([i] ++ [k]). rewrite app_assoc. split.
  - intros E. apply app_inj_tail in E. auto.
  - intros [-> ->]. reflexivity.
Qed.

Lemma row_fold_sum (ts : list (list nat * F)) p i n b :
  (forall e, In e ts -> fst e <> [] /\ (removelast (fst e) = p ++ [i] -> last (fst e) 0 < n)) ->
  row_fold f0 (fun v => v) (ent_row ts p i) b = sum_n n (fun k => fmul (sum_at ts (p ++ [i; k])) (b k)).
Proof.
  intros HI. unfold row_fold. rewrite (fold_add_acc Hex).
  transitivity (fold_right (fun e t => fadd (if list_eq_dec Nat.eq_dec (removelast (fst e)) (p ++ [i]) then fmul (snd e) (b (last (fst e) 0)) else f0) t) f0 ts).
  { unfold ent_row. clear HI. induction ts as [|e l IH]; cbn [filter map fold_right]; [ring|].
    destruct (list_eq_dec Nat.eq_dec (removelast (fst e)) (p ++ [i])); cbn [map fold_right fst snd].
    - rewrite <- IH. ring.
    - rewrite <- IH. ring. }
  induction ts as [|e l IH].
  - cbn [fold_right]. rewrite (@sum_ext _ SF n _ (fun _ => f0)); [symmetry; apply (sum_zero Hex)|].
    intros. rewrite sum_at_right. cbn. ring.
  - cbn [fold_right]. rewrite IH by (intros; apply HI; now right).
    rewrite (@sum_ext _ SF n (fun k => fmul (sum_at (e :: l) (p ++ [i; k])) (b k))
      (fun k => fadd (fmul (if list_eq_dec Nat.eq_dec (fst e) (p ++ [i; k]) then snd e else f0) (b k)) (fmul (sum_at l (p ++ [i; k])) (b k)))).
    2: { intros k Hk. rewrite !sum_at_right. cbn [fold_right]. ring. }
    rewrite (sum_add Hex). f_equal.
    destruct (HI e) as [Hne Hlt]; [now left|].
    destruct (list_eq_dec Nat.eq_dec (removelast (fst e)) (p ++ [i])) as [Eq|Nq].
    + rewrite (@sum_ext _ SF n _ (fun k => if Nat.eqb k (last (fst e) 0) then fmul (snd e) (b k) else f0)).
      * rewrite (@sum_single _ SF Hex n (last (fst e) 0) (fun k => if Nat.eqb k (last (fst e) 0) then fmul (snd e) (b k) else f0)).
        -- rewrite Nat.eqb_refl. now rewrite (proj2 (Nat.ltb_lt _ _)) by (apply Hlt; auto).
        -- intros k Hk Hk'. rewrite (proj2 (Nat.eqb_neq _ _)); auto.
      * intros k Hk. destruct (list_eq_dec Nat.eq_dec (fst e) (p ++ [i; k])) as [E|N].
        -- apply removelast_eq in E; auto. destruct E as [_ E]. rewrite E, Nat.eqb_refl. reflexivity.
        -- destruct (Nat.eqb_spec k (last (fst e) 0)) as [->|]; [|ring]. exfalso. apply N. apply removelast_eq; auto.
    + rewrite (@sum_ext _ SF n _ (fun _ => f0)); [symmetry; apply (sum_zero Hex)|].
      intros k Hk. destruct (list_eq_dec Nat.eq_dec (fst e) (p ++ [i; k])) as [E|N]; [|ring].
      apply removelast_eq in E; auto. tauto.
Qed.
End Exact.
