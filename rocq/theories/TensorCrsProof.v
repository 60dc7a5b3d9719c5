(** * TensorCrsProof: tensor_COO -> tensor_CRS *)
From Coq Require Import NArith.
From Verif Require Import Base Scalar Spec SumFacts Loops DenseModel CooModel Observe CooProof CooSortProof CooMiscProof
  CrsModel CrsObserve CrsProof CrsSimProof CrsConvProof TensorModel TensorSpec TensorProof TensorCrsModel TensorCrsSpec.
Set Implicit Arguments.

Ltac ksimpl := cbn [k_shape k_rps k_cis k_val k_first k_nnz k_alloc k_own k_hash k_set_val k_set_shape k_set_own k_set_st
  k_set_hash].

(** ** sorted lists and filters *)
Lemma sorted_filter_split {A} (key : A -> nat) (l : list A) u :
  StronglySorted (fun a b => key a <= key b) l ->
  l = filter (fun e => key e <? u) l ++ filter (fun e => key e =? u) l ++ filter (fun e => u <? key e) l.
Proof.
  induction 1 as [|a l HS IH HF]; cbn [filter]; auto.
  rewrite Forall_forall in HF.
  destruct (Nat.ltb_spec (key a) u) as [H1|H1].
  - destruct (Nat.eqb_spec (key a) u); [lia|]. destruct (Nat.ltb_spec u (key a)); [lia|].
    cbn [app]. f_equal. exact IH.
  - assert (E : filter (fun e => key e <? u) l = []).
    { clear IH HS. induction l as [|b l IHl]; cbn [filter]; auto.
      pose proof (HF b (or_introl eq_refl)). destruct (Nat.ltb_spec (key b) u); [lia|].
      apply IHl. intros x Hx. apply HF. now right. }
    rewrite E in *. cbn [app] in *.
    destruct (Nat.eqb_spec (key a) u) as [H2|H2].
    + destruct (Nat.ltb_spec u (key a)); [lia|]. cbn [app]. f_equal. exact IH.
    + destruct (Nat.ltb_spec u (key a)); [|lia].
      assert (E2 : filter (fun e => key e =? u) l = []).
      { clear IH HS E. induction l as [|b l IHl]; cbn [filter]; auto.
        pose proof (HF b (or_introl eq_refl)). destruct (Nat.eqb_spec (key b) u); [lia|].
        apply IHl. intros x Hx. apply HF. now right. }
      rewrite E2 in *. cbn [app] in *. f_equal. exact IH.
Qed.

Lemma count_below {A} (key : A -> nat) (l : list A) u :
  length (filter (fun e => key e <? u) l) =
  list_sum (map (fun w => length (filter (fun e => key e =? w) l)) (seq 0 u)).
Proof.
  induction u as [|u IH].
  - cbn [seq map list_sum fold_right]. induction l as [|a l IH]; cbn [filter]; auto.
  - rewrite seq_S, map_app, list_sum_app, <- IH. cbn [map list_sum fold_right Nat.add]. rewrite Nat.add_0_r. clear IH.
    induction l as [|a l IH]; cbn [filter length]; auto.
    destruct (Nat.ltb_spec (key a) (S u)), (Nat.ltb_spec (key a) u), (Nat.eqb_spec (key a) u); cbn [length]; lia.
Qed.

Lemma filter_eq_nth {A} (d : A) (key : A -> nat) (l : list A) u k :
  StronglySorted (fun a b => key a <= key b) l -> k < length (filter (fun e => key e =? u) l) ->
  nth k (filter (fun e => key e =? u) l) d = nth (length (filter (fun e => key e <? u) l) + k) l d.
Proof.
  intros HS Hk. symmetry. etransitivity.
  { apply (f_equal (fun z => nth (length (filter (fun e => key e <? u) l) + k) z d)). exact (sorted_filter_split key u HS). }
  rewrite app_nth2 by lia. replace (_ + k - _) with k by lia. now rewrite app_nth1 by auto.
Qed.

Lemma sorted_map_filter {A} (key row : A -> nat) (l : list A) u :
  StronglySorted (fun a b => key a <= key b /\ (key a = key b -> row a <= row b)) l ->
  StronglySorted le (map row (filter (fun e => key e =? u) l)).
Proof.
  induction 1 as [|a l HS IH HF]; cbn; [constructor|].
  destruct (Nat.eqb_spec (key a) u) as [E|]; auto. cbn. constructor; auto.
  rewrite Forall_forall in *. intros r Hr. apply in_map_iff in Hr. destruct Hr as (b & <- & Hb).
  apply filter_In in Hb. destruct Hb as [Hb He]. apply Nat.eqb_eq in He. apply HF; auto. lia.
Qed.

Lemma In_firstn {A} n (l : list A) x : In x (firstn n l) -> In x l.
Proof. intros H. rewrite <- (firstn_skipn n l). apply in_or_app. now left. Qed.

Lemma sorted_firstn {A} (R : A -> A -> Prop) l n : StronglySorted R l -> StronglySorted R (firstn n l).
Proof.
  intros H; revert n; induction H as [|a l HS IH HF]; intros [|n]; cbn; try constructor; auto.
  rewrite Forall_forall in *. intros x Hx. apply HF. now apply (In_firstn n).
Qed.

Lemma inside_parts s p : inside s p ->
  forall n, inside (firstn n s) (firstn n p) /\ forall i, i < length s -> nth i p 0 < nth i s 0.
Proof.
  unfold inside. induction 1 as [|x y l l' Hxy HF IH]; intros n.
  - rewrite !firstn_nil. split; [constructor|]. cbn. intros; lia.
  - split.
    + destruct n; cbn; constructor; auto. exact (proj1 (IH n)).
    + intros [|i] Hi; cbn in *; auto. apply (proj2 (IH 0)). lia.
Qed.

Lemma nth_map_lt {A B} (g : A -> B) (d' : B) (d : A) l k : k < length l -> nth k (map g l) d' = g (nth k l d).
Proof. intros H. rewrite (nth_indep _ d' (g d)) by now rewrite map_length. apply map_nth. Qed.

Section Basic.
Context {F : Type} {SF : Scalar F} {SC : Schedule}.
Lemma tr_resize_ok (t : tcrs F) n Val : length (k_val t) = k_alloc t -> k_nnz t <= k_alloc t -> k_first t = 0 ->
  k_own t = true ->
  exists t', tr_resize t n Val = Ok t' /\ length (k_val t') = k_alloc t' /\ n <= k_alloc t' /\ k_first t' = 0 /\
    k_nnz t' = n /\ k_own t' = true /\ k_shape t' = k_shape t /\ k_rps t' = k_rps t /\ k_cis t' = k_cis t /\
    k_hash t' = k_hash t.
Proof.
  intros H1 H2 H3 H4. unfold tr_resize. rewrite H3. cbn [Nat.add].
  destruct (Nat.ltb_spec n (k_alloc t)) as [Hs|Hs].
  - destruct (le_lt_dec (k_nnz t) n) as [Hle|Hgt].
    + rewrite fill_loop0 by lia. cbn [bind]. eexists; split; [reflexivity|]. ksimpl.
      rewrite !app_length, firstn_length, repeat_length, skipn_length. repeat split; auto; lia.
    + rewrite for_empty by lia. cbn [bind]. eexists; split; [reflexivity|]. ksimpl. repeat split; auto; lia.
  - rewrite H4.
    rewrite (@copy_loop0 F f0) by (rewrite ?repeat_length; lia). cbn [bind].
    rewrite fill_loop0 by (rewrite ?app_length, ?firstn_length, ?skipn_length, ?repeat_length; lia).
    cbn [bind]. eexists; split; [reflexivity|]. ksimpl.
    rewrite !app_length, ?firstn_length, ?skipn_length, ?repeat_length, ?app_length, ?firstn_length,
      ?skipn_length, ?repeat_length.
    repeat split; auto; lia.
Qed.

Lemma tr_hash_ok (t : tcrs F) : k_shape t <> [] -> length (k_cis t) = length (k_rps t) ->
  exists h, tr_compute_hash t = Ok (k_set_hash t (Some h)).
Proof.
  intros H1 H2. unfold tr_compute_hash.
  destruct (@for0_inv BinNums.N (fun _ _ => True) (length (k_rps t)) (fun d h =>
         s0 <- rd (k_shape t) 0 ;; rp <- rd (k_rps t) d ;; ci <- rd (k_cis t) d ;;
         Ok (vhash (length ci) (vhash (length rp) (N.lor (N.of_nat s0) h)))) 0%N) as (h & Eh & _); auto.
  - intros i s Hi _. rewrite (@rd_lt _ (k_shape t) 0 0) by (destruct (k_shape t); [congruence|cbn; lia]).
    rewrite (@rd_lt _ _ i []) by auto. cbn [bind]. rewrite (@rd_lt _ _ i []) by lia. cbn [bind]. eauto.
  - rewrite Eh. cbn [bind]. eauto.
Qed.
End Basic.

Section TensorCrs.
Context {F : Type} {SF : Scalar F} {SC : Schedule}.
Local Notation entry := (list nat * F)%type.
Local Notation DE := (@nil nat, @f0 F SF).

Lemma slice_number_eq sh p : length p = length sh ->
  slice_number sh p = Ok (row_major (slices sh) (firstn (length sh - 2) p)).
Proof.
  intros HL. unfold slice_number, slices. set (n := length sh - 2).
  assert (L1 : length (firstn n sh) = n) by (rewrite firstn_length; unfold n; lia).
  assert (L2 : length (firstn n p) = n) by (rewrite firstn_length; unfold n; lia).
  pose proof (@t_index_acc (firstn n sh) (firstn n p) 0 ltac:(lia)) as E. rewrite L2 in E.
  cbn [Nat.mul Nat.add] in E. rewrite <- E. apply for_ext. intros i s Hi.
  rewrite !(@rd_lt nat _ i 0) by lia. rewrite !nth_firstn by lia. reflexivity.
Qed.

(** ** the row_ptr update of one entry *)
Definition rstep (n r : nat) (st : list nat * nat) : res (list nat * nat) :=
  let '(rp, crow) := st in
  if crow =? r then
    rp <- wr rp (crow + 1) (n + 1) ;; Ok (rp, crow)
  else
    rp <- for_ (crow + 1) r (fun j rp => wr rp (j + 1) n) rp ;;
    rp <- wr rp (r + 1) (n + 1) ;; Ok (rp, r).
Definition rloop (rp0 rows : list nat) : res (list nat * nat) :=
  for_ 0 (length rows) (fun i st => r <- rd rows i ;; rstep i r st) (rp0, 0).

Lemma rloop_snoc rp0 rows r : rloop rp0 (rows ++ [r]) = bind (rloop rp0 rows) (rstep (length rows) r).
Proof.
  unfold rloop. rewrite app_length. cbn [length]. rewrite Nat.add_1_r, for_last by lia.
  rewrite (@for_ext _ 0 (length rows) _ (fun i st => r <- rd rows i ;; rstep i r st)).
  - destruct (for_ 0 (length rows) _ (rp0, 0)); cbn [bind]; auto.
    rewrite (@rd_lt nat _ _ 0) by (rewrite app_length; cbn; lia). rewrite nth_middle. reflexivity.
  - intros i s Hi. rewrite !(@rd_lt nat _ i 0) by (rewrite ?app_length; cbn; lia).
    now rewrite app_nth1 by lia.
Qed.

Lemma rloop_ok rows M : StronglySorted le rows -> Forall (fun r => r < M) rows ->
  exists st, rloop (repeat 0 (M + 1)) rows = Ok st /\ length (fst st) = M + 1.
Proof.
  intros HS HF.
  destruct (@rowptr_loop rows (length rows) M (repeat 0 (M + 1))) as (rp & crow & E & HL & _).
  - lia.
  - apply repeat_length.
  - rewrite nth_repeat by lia. auto.
  - intros k Hk. rewrite Forall_forall in HF. apply HF. now apply nth_In.
  - intros k k' H1 H2. destruct (Nat.eq_dec k k') as [->|]; auto.
    apply (@strongly_sorted_nth _ _ 0 _ HS k k'); lia.
  - exists (rp, crow). split; auto. etransitivity; [|exact E]. unfold rloop. apply for_ext. intros i [rp' c'] Hi.
    destruct (rd rows i); cbn [bind]; auto.
Qed.

(** ** reading entries *)
Variable q : tcoo F.
Let sh := q_shape q.
Let E := tc_entries q.
Hypothesis Hrank : 2 <= length sh.
Hypothesis Hok : tc_ok q.
Hypothesis Hin : tc_inside q.
Hypothesis Hsort : pos_sorted (tc_entries q).

Let key (e : entry) : nat := row_major (slices sh) (firstn (length sh - 2) (fst e)).
Let rowof (e : entry) : nat := nth (length sh - 2) (fst e) 0.
Let colof (e : entry) : nat := nth (length sh - 1) (fst e) 0.
Let U := prod (slices sh).
Let M := n_rows sh.
Let N := n_cols sh.

Lemma tc_entries_length : length E = q_nnz q.
Proof. destruct Hok as (H1 & H2 & H3 & _). unfold E, tc_entries. rewrite firstn_length, combine_length. lia. Qed.
Lemma tc_entries_nth i : i < q_nnz q -> nth i E DE = (nth i (q_index q) [], nth i (q_val q) f0).
Proof.
  destruct Hok as (H1 & H2 & H3 & _). intros Hi. unfold E, tc_entries. rewrite nth_firstn by auto.
  apply combine_nth. lia.
Qed.

Lemma shape_split : sh = slices sh ++ [M; N].
Proof.
  unfold slices, M, N, n_rows, n_cols. rewrite <- (firstn_skipn (length sh - 2) sh) at 1. f_equal.
  apply list_ext with (d := 0); [rewrite skipn_length; cbn; lia|].
  intros i Hi. rewrite skipn_length in Hi. rewrite nth_skipn.
  destruct i as [|[|i]]; cbn [nth]; [f_equal; lia|f_equal; lia|lia].
Qed.
Lemma slices_length : length (slices sh) = length sh - 2.
Proof. unfold slices. rewrite firstn_length. lia. Qed.

Lemma pos_split p : inside sh p ->
  exists a, p = a ++ [nth (length sh - 2) p 0; nth (length sh - 1) p 0] /\ a = firstn (length sh - 2) p /\
    inside (slices sh) a /\ nth (length sh - 2) p 0 < M /\ nth (length sh - 1) p 0 < N.
Proof.
  intros Hp. pose proof (inside_length Hp) as HL.
  exists (firstn (length sh - 2) p). split; [|split; [auto|]].
  - rewrite <- (firstn_skipn (length sh - 2) p) at 1. f_equal.
    apply list_ext with (d := 0); [rewrite skipn_length; cbn; lia|].
    intros i Hi. rewrite skipn_length in Hi. rewrite nth_skipn.
    destruct i as [|[|i]]; cbn [nth]; [f_equal; lia|f_equal; lia|lia].
  - pose proof (inside_parts Hp) as G.
    split; [apply G|]. split; apply (G 0); lia.
Qed.

Lemma entry_inside e : In e E -> inside sh (fst e).
Proof. destruct e as [p v]. intros H. exact (Hin _ _ H). Qed.

Lemma key_lt e : In e E -> key e < U /\ rowof e < M /\ colof e < N.
Proof.
  intros H. destruct (pos_split (entry_inside _ H)) as (a & _ & Ea & Ha & Hr & Hc).
  split; [|split; auto]. unfold key. rewrite <- Ea. now apply row_major_lt.
Qed.

Lemma lex_app a a' b b' : length a = length a' -> lex_le (a ++ b) (a' ++ b') -> lex_le a a' /\ (a = a' -> lex_le b b').
Proof.
  revert a'; induction a as [|x a IH]; intros [|y a'] HL H; cbn in *; try lia; auto.
  destruct H as [H|[-> H]].
  - split; auto. intros [=]. lia.
  - destruct (IH a') as [G1 G2]; auto. split; auto. intros [=]. auto.
Qed.

Lemma entries_sorted : StronglySorted (fun a b => key a <= key b /\ (key a = key b -> rowof a <= rowof b)) E.
Proof.
  pose proof entry_inside as HI0. pose proof Hsort as HS0. unfold pos_sorted in HS0. fold E in HS0.
  revert HI0 HS0. generalize E. intros l HI HS. induction HS as [|a l HS IH HF]; constructor.
  - apply IH. intros e He. apply HI. now right.
  - rewrite Forall_forall in *. intros b Hb. specialize (HF b Hb).
    destruct (pos_split (HI a (or_introl eq_refl))) as (pa & Ea & Fa & Ia & Ra & _).
    destruct (pos_split (HI b (or_intror Hb))) as (pb & Eb & Fb & Ib & Rb & _).
    fold (rowof a) in *. fold (rowof b) in *. unfold key. rewrite <- Fa, <- Fb.
    rewrite Ea, Eb in HF. apply lex_app in HF.
    + destruct HF as [G1 G2]. split; [now apply row_major_lex|].
      intros G. apply row_major_inj in G; auto. apply G2 in G. cbn in G. lia.
    + rewrite (inside_length Ia), (inside_length Ib). auto.
Qed.

Lemma keys_sorted : StronglySorted (fun a b => key a <= key b) E.
Proof.
  pose proof entries_sorted as H. induction H as [|a l HS IH HF]; constructor; auto.
  rewrite Forall_forall in *. intros b Hb. now apply HF.
Qed.

Let sel (u : nat) (l : list entry) := filter (fun e => key e =? u) l.

Lemma rows_ok u n : exists st, rloop (repeat 0 (M + 1)) (map rowof (sel u (firstn n E))) = Ok st /\
  length (fst st) = M + 1.
Proof.
  apply rloop_ok.
  - apply sorted_map_filter. apply sorted_firstn. exact entries_sorted.
  - rewrite Forall_forall. intros r Hr. apply in_map_iff in Hr. destruct Hr as (e & <- & He).
    apply filter_In in He. destruct He as [He _]. apply In_firstn in He. now apply key_lt.
Qed.

Definition tinv (i : nat) (st : list (list nat) * list (list nat) * list nat * nat * nat) : Prop :=
  let '(rps, cis, crows, new_i, prev) := st in
  length rps = U /\ length cis = U /\ length crows = U /\
  (forall u, u < U -> rloop (repeat 0 (M + 1)) (map rowof (sel u (firstn i E))) = Ok (nth u rps [], nth u crows 0)) /\
  (forall u, u < U -> nth u cis [] = map colof (sel u (firstn i E))) /\
  new_i = length (sel prev (firstn i E)) /\
  prev = (if i =? 0 then 0 else key (nth (i - 1) E DE)).

Lemma tr_loop : exists st,
  for_ 0 (q_nnz q) (tr_step sh (q_index q)) (repeat (repeat 0 (M + 1)) U, repeat [] U, repeat 0 U, 0, 0) = Ok st /\
  tinv (q_nnz q) st.
Proof.
  pose proof tc_entries_length as HLE.
  apply for0_inv.
  - unfold tinv. rewrite !repeat_length. repeat split; auto.
    + intros u Hu. cbn [firstn]. unfold sel; cbn [filter map]. unfold rloop. cbn [length].
      rewrite for_empty by lia. rewrite !nth_repeat by auto. reflexivity.
    + intros u Hu. now rewrite nth_repeat by auto.
  - intros i [[[[rps cis] crows] new_i] prev] Hi (I1 & I2 & I3 & I4 & I5 & I6 & I7).
    set (e := nth i E DE).
    assert (He : In e E) by (apply nth_In; lia).
    assert (Ee : fst e = nth i (q_index q) []) by (unfold e; rewrite tc_entries_nth by auto; reflexivity).
    destruct (key_lt _ He) as (Ku & Kr & Kc).
    assert (HLp : length (fst e) = length sh) by (apply inside_length, entry_inside; auto).
    unfold tr_step.
    rewrite (@rd_lt _ (q_index q) i []) by (destruct Hok as (? & ? & ? & _); lia). cbn [bind].
    rewrite <- Ee, slice_number_eq by auto. cbn [bind]. fold (key e).
    assert (Hn : (if key e =? prev then new_i else 0) = length (map rowof (sel (key e) (firstn i E)))).
    { rewrite map_length. destruct (Nat.eqb_spec (key e) prev) as [->|Hne]; auto.
      assert (Hnil : sel (key e) (firstn i E) = []); [|now rewrite Hnil].
      destruct i as [|i]; [reflexivity|]. cbn [Nat.eqb] in I7. replace (S i - 1) with i in I7 by lia.
      assert (Hpe : prev <= key e).
      { rewrite I7. apply (@strongly_sorted_nth _ _ DE _ keys_sorted i (S i)); lia. }
      assert (G : forall x, In x (firstn (S i) E) -> key x <= prev).
      { intros x Hx. apply In_nth with (d := DE) in Hx. destruct Hx as (k & Hk & <-).
        rewrite firstn_length in Hk. rewrite nth_firstn by lia. rewrite I7.
        destruct (Nat.eq_dec k i) as [->|]; auto.
        apply (@strongly_sorted_nth _ _ DE _ keys_sorted k i); lia. }
      unfold sel. clear - G Hne Hpe. induction (firstn (S i) E) as [|x l IH]; cbn; auto.
      pose proof (G x (or_introl eq_refl)). destruct (Nat.eqb_spec (key x) (key e)); [lia|].
      apply IH. intros y Hy. apply G. now right. }
    rewrite Hn. set (n := length (map rowof (sel (key e) (firstn i E)))) in *.
    rewrite (@rd_lt _ crows _ 0) by lia. cbn [bind].
    rewrite (@rd_lt _ (fst e) _ 0) by lia. cbn [bind]. fold (rowof e).
    rewrite (@rd_lt _ rps _ []) by lia. cbn [bind].
    destruct (rows_ok (key e) (S i)) as ([rp' crow'] & Er & HLr). cbn [fst] in HLr.
    assert (Hfs : firstn (S i) E = firstn i E ++ [e]) by (apply firstn_S_nth; lia).
    assert (Hsel : forall u, sel u (firstn (S i) E) = sel u (firstn i E) ++ (if key e =? u then [e] else [])).
    { intros u. rewrite Hfs. unfold sel. rewrite filter_app. reflexivity. }
    rewrite Hsel, Nat.eqb_refl, map_app in Er. cbn [map] in Er. rewrite rloop_snoc in Er.
    rewrite (I4 _ Ku) in Er. cbn [bind] in Er. fold n in Er. unfold rstep in Er.
    rewrite Er. cbn [bind]. rewrite !wr_lt by lia. cbn [bind].
    rewrite (@rd_lt _ cis _ []) by lia. cbn [bind].
    rewrite (@rd_lt _ (fst e) _ 0) by lia. cbn [bind]. fold (colof e).
    rewrite wr_lt by lia. cbn [bind].
    eexists. split; [reflexivity|]. unfold tinv. rewrite !upd_length.
    split; auto. split; auto. split; auto. split; [|split; [|split]].
    + intros u Hu. rewrite Hsel. destruct (Nat.eqb_spec (key e) u) as [<-|Hne].
      * rewrite !nth_upd_same by lia. rewrite map_app. cbn [map]. rewrite rloop_snoc, (I4 _ Ku). cbn [bind].
        fold n. exact Er.
      * rewrite !nth_upd_other by auto. rewrite app_nil_r. auto.
    + intros u Hu. rewrite Hsel. destruct (Nat.eqb_spec (key e) u) as [<-|Hne].
      * rewrite nth_upd_same by lia. rewrite map_app, I5 by auto. reflexivity.
      * rewrite nth_upd_other by auto. rewrite app_nil_r. auto.
    + rewrite Hsel, Nat.eqb_refl, app_length. cbn [length]. unfold n. rewrite map_length. lia.
    + cbn [Nat.eqb]. replace (S i - 1) with i by lia. reflexivity.
Qed.

(** ** one slice of the result *)
Lemma slice_ok (rp : list nat) (B : crs F) crow u : u < U ->
  rloop (repeat 0 (M + 1)) (map rowof (sel u E)) = Ok (rp, crow) ->
  m_row B = M -> m_col B = N -> m_rp B = rp -> m_ci B = map colof (sel u E) -> m_nnz B = length (sel u E) ->
  length (m_val B) = m_alloc B -> m_first B + m_nnz B <= m_alloc B ->
  (forall k, k < m_nnz B -> vln B k = snd (nth k (sel u E) DE)) ->
  crs_readable B /\
  forall i, i < M -> crs_row B i = map (fun e => (colof e, snd e)) (filter (fun e => rowof e =? i) (sel u E)).
Proof.
  intros Hu Er Br Bc Brp Bci Bn Bl Ba Bv. set (S := sel u E) in *.
  set (c := mkCoo M N (map rowof S) (map colof S) (map snd S) (length S) (length S) true).
  assert (Wc : coo_ok c) by (unfold coo_ok, c; cbn; rewrite !map_length; repeat split; auto).
  assert (Hent : coo_entries c = map (fun e => (rowof e, colof e, snd e)) S).
  { apply list_ext with (d := (0, 0, f0)); [rewrite coo_entries_length by auto; now rewrite map_length|].
    intros k Hk. rewrite coo_entries_length in Hk by auto. rewrite coo_entries_nth by auto. cbn [c_ri c_ci c_val c] in *.
    cbn [c_nnz] in Hk.
    rewrite !(@nth_map_lt _ _ _ _ DE) by auto. reflexivity. }
  assert (HSel : forall e, In e S -> key e = u /\ In e E).
  { intros e He. apply filter_In in He. destruct He as [H1 H2]. apply Nat.eqb_eq in H2. auto. }
  assert (HR : in_range (c_row c) (c_col c) (coo_entries c)).
  { rewrite Hent. unfold in_range. rewrite Forall_forall. intros t Ht. apply in_map_iff in Ht.
    destruct Ht as (e & <- & He). apply HSel in He. destruct He as [_ He]. destruct (key_lt _ He) as (_ & ? & ?). cbn. auto. }
  assert (HS : row_sorted (coo_entries c)).
  { rewrite Hent. unfold row_sorted. pose proof (@sorted_map_filter _ key rowof E u entries_sorted) as G.
    fold (sel u E) in G. fold S in G. clear - G. revert G. generalize S. clear S. intros S G.
    induction S as [|e S IH]; cbn in *; constructor; inversion G; subst.
    - apply IH; auto.
    - rewrite Forall_forall in *. intros t Ht. apply in_map_iff in Ht. destruct Ht as (e' & <- & He').
      cbn. apply H2. apply in_map_iff. eauto. }
  destruct (@crs_convert_coo_fresh F SF _ crs_empty c crs_empty_buf eq_refl Wc HR HS) as
    (a' & A & Ec & Hp & Ar & Ac & An & Hsim & WA & HEA).
  assert (Ga : m_rp a' = rp /\ m_ci a' = map colof S).
  { unfold crs_convert_coo in Ec.
    destruct (crs_resize _ _ _) as [a2| | | |] eqn:E2; try discriminate. cbn [bind] in Ec.
    destruct (for_ 0 (c_nnz c) _ (m_val a2)) as [v| | | |]; try discriminate. cbn [bind] in Ec.
    destruct (@crs_resize_ok F SF (m_set_own (m_set_rc crs_empty (c_row c) (c_col c))) (c_nnz c) f0) as
      (a3 & E3 & _ & _ & _ & _ & _ & Hrp & _); auto.
    { repeat split; auto. }
    rewrite E2 in E3. injection E3 as <-. rewrite Hrp in Ec. msimpl.
    change (m_rp (m_set_own (m_set_rc crs_empty (c_row c) (c_col c)))) with (@nil nat) in Ec.
    assert (Hv : vresize 0 [] (c_row c + 1) = repeat 0 (M + 1)).
    { apply list_ext with (d := 0); [rewrite vresize_length, repeat_length; reflexivity|].
      intros k Hk. rewrite vresize_length in Hk. rewrite nth_vresize by auto. cbn [length Nat.ltb Nat.leb].
      rewrite nth_repeat by auto. reflexivity. }
    rewrite Hv in Ec. rewrite wr_lt in Ec by (rewrite repeat_length; lia). cbn [bind] in Ec.
    assert (Hup : upd (repeat 0 (M + 1)) 0 0 = repeat 0 (M + 1)) by (rewrite Nat.add_1_r; reflexivity).
    rewrite Hup in Ec. unfold rloop in Er. rewrite map_length in Er.
    change (c_ri c) with (map rowof S) in Ec. change (c_nnz c) with (length S) in Ec.
    match type of Ec with context [for_ 0 (length S) ?b _] => rewrite (@for_ext _ 0 (length S) b
      (fun i st => r <- rd (map rowof S) i ;; rstep i r st)) in Ec end.
    2: { intros i [? ?] Hi. destruct (rd (map rowof S) i); reflexivity. }
    rewrite Er in Ec. cbn [bind] in Ec. injection Ec as <-. split; reflexivity. }
  destruct Ga as [Grp Gci].
  pose proof Hsim as (S1 & S2 & S3 & S4 & S5 & S6 & S7 & S8 & S9).
  set (B' := m_set_rp B (m_rp A)).
  assert (HnA : m_nnz A = length S) by (rewrite <- S6, An; reflexivity).
  assert (Hvals : forall k, k < length S -> vln A k = snd (nth k S DE) /\ cin A k = colof (nth k S DE)).
  { intros k Hk. assert (Q : nth k (crs_entries A) (0,0,f0) = (fun e => (rowof e, colof e, snd e)) (nth k S DE)).
    { rewrite HEA, Hent. now rewrite (@nth_map_lt _ _ _ _ DE) by auto. }
    rewrite <- HnA in Hk. destruct (crs_entries_ex WA Hk) as (i & _ & _ & Ei). rewrite Ei in Q. injection Q as _ Q1 Q2. auto. }
  destruct (@crs_ext_ok F SF A B' WA) as [WB' HEB]; unfold B', m_set_rp; msimpl; auto; try lia.
  - rewrite Br, <- S1, Ar. reflexivity.
  - rewrite Bc, <- S2, Ac. reflexivity.
  - rewrite Bci, map_length. lia.
  - rewrite HnA. intros k Hk. destruct (Hvals k Hk) as [V1 V2]. rewrite V1, V2.
    split; [unfold cin; msimpl; rewrite Bci; now rewrite (@nth_map_lt _ _ _ _ DE) by auto|].
    unfold vln in *; msimpl. apply Bv. lia.
  - assert (HsB : crs_sim B B').
    { unfold crs_sim, B', m_set_rp; msimpl. repeat split; auto.
      - rewrite Brp, <- Grp, S7, Ar, Br. reflexivity.
      - rewrite S8, <- S1, Ar, Br. reflexivity.
      - intros i Hi. unfold rpn in *; msimpl. rewrite Brp, <- Grp. apply S9. rewrite Ar. cbn [c_row c]. lia. }
    split; [exists B'; split; auto|].
    intros i Hi. rewrite (crs_sim_row HsB) by lia.
    rewrite (@rows_of_entries F SF B' (map (fun e => (rowof e, colof e, snd e)) S)).
    + clear. induction S as [|e S IH]; cbn; auto. destruct (rowof e =? i); cbn; rewrite ?IH; auto.
    + rewrite HEB, HEA, Hent. reflexivity.
    + unfold B', m_set_rp; msimpl. lia.
Qed.


(** ** the whole conversion *)


Lemma sel_ent_row u p i l : (forall e, In e l -> inside sh (fst e)) -> inside (slices sh) p -> u = row_major (slices sh) p ->
  map (fun e => (colof e, snd e)) (filter (fun e => rowof e =? i) (sel u l)) = ent_row l p i.
Proof.
  intros HI Hp ->. unfold ent_row, sel. induction l as [|e l IH]; auto.
  cbn [filter].
  assert (He := HI e (or_introl eq_refl)). specialize (IH (fun x H => HI x (or_intror H))). clear HI.
  destruct (pos_split He) as (a & Ea & Fa & Ia & _).
  assert (Hk : key e = row_major (slices sh) a) by (unfold key; now rewrite Fa).
  assert (Hrm : removelast (fst e) = a ++ [rowof e]).
  { rewrite Ea. change [nth (length sh - 2) (fst e) 0; nth (length sh - 1) (fst e) 0] with ([rowof e] ++ [colof e]).
    rewrite app_assoc. apply removelast_last. }
  assert (Hla : last (fst e) 0 = colof e).
  { rewrite Ea. change [nth (length sh - 2) (fst e) 0; nth (length sh - 1) (fst e) 0] with ([rowof e] ++ [colof e]).
    rewrite app_assoc. apply last_last. }
  destruct (Nat.eqb_spec (key e) (row_major (slices sh) p)) as [E1|E1].
  - rewrite Hk in E1. apply row_major_inj in E1; auto. subst p. cbn [filter].
    destruct (Nat.eqb_spec (rowof e) i) as [E2|E2].
    + destruct (list_eq_dec Nat.eq_dec (removelast (fst e)) (a ++ [i])) as [|n]; [|rewrite Hrm, E2 in n; congruence].
      cbn [map]. rewrite Hla. f_equal. exact IH.
    + destruct (list_eq_dec Nat.eq_dec (removelast (fst e)) (a ++ [i])) as [n|]; auto.
      rewrite Hrm in n. apply app_inj_tail in n. destruct n. congruence.
  - destruct (list_eq_dec Nat.eq_dec (removelast (fst e)) (p ++ [i])) as [n|]; auto.
    rewrite Hrm in n. apply app_inj_tail in n. destruct n. congruence.
Qed.

Theorem tr_convert_coo_ok (t : tcrs F) : tr_fresh t ->
  exists A, tr_convert_coo t q = Ok A /\ k_shape A = q_shape q /\ k_nnz A = q_nnz q /\ k_first A = 0 /\ k_own A = true /\
    k_hash A <> None /\ length (k_val A) = k_alloc A /\ q_nnz q <= k_alloc A /\
    tr_readable A /\
    (forall i, i < q_nnz q -> nth i (k_val A) f0 = nth i (q_val q) f0) /\
    forall p i, inside (slices (q_shape q)) p -> i < n_rows (q_shape q) -> tr_row A p i = ent_row (tc_entries q) p i.
Proof.
  intros (T1 & T2 & T3 & T4 & T5). unfold tr_convert_coo. fold sh.
  pose proof Hok as (Q1 & Q2 & Q3 & _).
  destruct (@tr_resize_ok F SF (k_set_own (k_set_shape t sh)) (q_nnz q) f0) as
    (t2 & E2 & B1 & B2 & B3 & B4 & B5 & B6 & B7 & B8 & B9); auto.
  rewrite E2. cbn [bind]. rewrite B3. cbn [Nat.add].
  rewrite (@copy_loop0 F f0) by lia. cbn [bind].
  assert (Ecount : t_count (firstn (length sh - 2) sh) = U) by apply t_count_eq.
  rewrite Ecount.
  assert (R1 : vresize [] (k_rps t2) U = repeat [] U).
  { rewrite B7. ksimpl. rewrite T4. apply list_ext with (d := []); [rewrite vresize_length, repeat_length; reflexivity|].
    intros k Hk. rewrite vresize_length in Hk. rewrite nth_vresize by auto. cbn [length Nat.ltb Nat.leb].
    rewrite nth_repeat by auto. reflexivity. }
  assert (R2 : vresize [] (k_cis t2) U = repeat [] U).
  { rewrite B8. ksimpl. rewrite T5. apply list_ext with (d := []); [rewrite vresize_length, repeat_length; reflexivity|].
    intros k Hk. rewrite vresize_length in Hk. rewrite nth_vresize by auto. cbn [length Nat.ltb Nat.leb].
    rewrite nth_repeat by auto. reflexivity. }
  rewrite R1, R2.
  destruct (@elem_loop (list nat) [] (fun _ rp => vresize 0 rp (M + 1)) 0 U 0 (fun ud rps =>
           if length sh <? 2 then UB else
           n <- rd sh (length sh - 2) ;; rp <- rd rps ud ;; wr rps ud (vresize 0 rp (n + 1))) (repeat [] U))
    as (rps0 & E3 & L3 & N3).
  { lia. } { rewrite repeat_length. lia. }
  { intros i t' Hi HL. rewrite repeat_length in HL. destruct (Nat.ltb_spec (length sh) 2); [lia|].
    rewrite (@rd_lt _ sh _ 0) by lia. cbn [bind Nat.add]. rewrite (@rd_lt _ t' i []) by lia. cbn [bind].
    rewrite wr_lt by lia. reflexivity. }
  rewrite E3. cbn [bind]. rewrite repeat_length in L3.
  assert (Erps : rps0 = repeat (repeat 0 (M + 1)) U).
  { apply list_ext with (d := []); [rewrite repeat_length; auto|]. intros k Hk. rewrite N3. cbn [Nat.add Nat.leb andb].
    rewrite (proj2 (Nat.ltb_lt _ _)) by lia. rewrite !nth_repeat by lia.
    apply list_ext with (d := 0); [rewrite vresize_length, repeat_length; reflexivity|].
    intros j Hj. rewrite vresize_length in Hj. rewrite nth_vresize by auto. cbn [length Nat.ltb Nat.leb].
    rewrite nth_repeat by auto. reflexivity. }
  rewrite Erps. destruct tr_loop as ([[[[rps cis] crows] new_i] prev] & E4 & I1 & I2 & I3 & I4 & I5 & _).
  rewrite E4. cbn [bind].
  match goal with |- exists A, tr_compute_hash ?x = _ /\ _ => set (t3 := x); destruct (@tr_hash_ok F SC t3) as (h & Eh) end.
  { unfold t3; ksimpl. rewrite B6. ksimpl. unfold sh in *. intros G. rewrite G in Hrank. cbn in Hrank. lia. }
  { unfold t3; ksimpl. lia. }
  rewrite Eh. eexists; split; [reflexivity|].
  assert (HLE := tc_entries_length).
  assert (Hfull : firstn (q_nnz q) E = E) by (rewrite <- HLE; apply firstn_all).
  rewrite Hfull in I4, I5.
  set (v := firstn (q_nnz q) (q_val q) ++ skipn (q_nnz q) (k_val t2)) in *.
  assert (Lv : length v = k_alloc t2) by (unfold v; rewrite app_length, firstn_length, skipn_length; lia).
  assert (Nv : forall i, i < q_nnz q -> nth i v f0 = nth i (q_val q) f0).
  { intros i Hi. unfold v. rewrite app_nth1 by (rewrite firstn_length; lia). now rewrite nth_firstn. }
  assert (Hsh : k_shape t2 = sh) by (rewrite B6; reflexivity).
  match goal with |- k_shape ?a = _ /\ _ => set (A := a) end.
  assert (HA : k_shape A = sh /\ k_rps A = rps /\ k_cis A = cis /\ k_val A = v /\ k_first A = 0 /\ k_nnz A = q_nnz q /\
    k_alloc A = k_alloc t2 /\ k_own A = true /\ k_hash A = Some h) by (unfold A, t3; ksimpl; repeat split; auto).
  clearbody A. destruct HA as (A1 & A2 & A3 & A4 & A5 & A6 & A7 & A8 & A9).
  assert (Hoff : forall u, u <= U -> tr_off A u = length (filter (fun e => key e <? u) E)).
  { intros u Hu. unfold tr_off. rewrite A3, count_below. f_equal.
    apply list_ext with (d := 0); [rewrite !map_length, seq_length, firstn_length; lia|].
    intros w Hw. rewrite map_length, firstn_length in Hw.
    rewrite (@nth_map_lt _ _ _ _ []) by (rewrite firstn_length; lia). rewrite nth_firstn by lia.
    rewrite nth_map_seq by lia. cbn [Nat.add]. rewrite I5 by lia. now rewrite map_length. }
  assert (Hall : length (filter (fun e => key e <? U) E) = q_nnz q).
  { rewrite <- HLE. f_equal. assert (G : forall e, In e E -> key e < U) by (intros; now apply key_lt).
    revert G. clear. generalize E. intros l G. induction l as [|e l IH]; cbn [filter]; auto.
    pose proof (G e (or_introl eq_refl)). destruct (Nat.ltb_spec (key e) U); [|lia]. f_equal. apply IH.
    intros x Hx. apply G. now right. }
  assert (Hsl : forall u, u < U -> crs_readable (tr_slice A u) /\
    forall i, i < M -> crs_row (tr_slice A u) i =
      map (fun e => (colof e, snd e)) (filter (fun e => rowof e =? i) (sel u E))).
  { intros u Hu.
    assert (Hin2 : tr_off A u + length (sel u E) <= q_nnz q).
    { rewrite Hoff by lia. rewrite <- HLE at 1. rewrite (sorted_filter_split key u keys_sorted) at 3.
      rewrite !app_length. unfold sel. lia. }
    assert (Hcl : length (nth u cis []) = length (sel u E)) by (rewrite I5 by auto; apply map_length).
    apply (@slice_ok (nth u rps []) (tr_slice A u) (nth u crows 0) u); auto; unfold tr_slice; msimpl;
      rewrite ?A1, ?A2, ?A3, ?A4, ?A5, ?A7; auto.
    - fold M. assert (Hrl : length (nth u rps []) = M + 1).
      { destruct (rows_ok u (q_nnz q)) as ([rp' c'] & Er' & HLr). rewrite Hfull, (I4 u Hu) in Er'. injection Er' as <- <-. exact HLr. }
      rewrite <- Hrl. apply firstn_all.
    - rewrite Hcl. lia.
    - intros k Hk. unfold vln; msimpl. rewrite ?A4, ?A5. cbn [Nat.add].
      rewrite Nv by lia. unfold sel. rewrite filter_eq_nth by (auto; try apply keys_sorted; fold (sel u E); lia).
      rewrite Hoff in Hin2 |- * by lia. rewrite tc_entries_nth by lia. reflexivity. }
  rewrite A5, A6, A7, A8, A9, A4. do 4 (split; [auto|]). split; [discriminate|]. split; [auto|]. split; [auto|].
  split; [|split].
  - unfold tr_readable. rewrite A1, A2, A3, A6. fold U.
    split; auto. split; auto. split; auto. split; [rewrite I2, Hoff by lia; lia|].
    intros d Hd. apply Hsl; auto.
  - exact Nv.
  - intros p i Hp Hi. unfold tr_row. rewrite A1.
    destruct (Hsl (row_major (slices sh) p)) as [_ G]; [now apply row_major_lt|].
    rewrite G by auto. apply sel_ent_row; auto. apply entry_inside.
Qed.

End TensorCrs.
