(** * CrsConvProof: COO -> CRS, CRS -> COO, copies, comparison, structure hash *)
From Coq Require Import NArith.
From Verif Require Import Base Scalar Spec SumFacts Loops DenseModel CooModel Observe CooProof CooSortProof
  CooMiscProof CrsModel CrsObserve CrsProof CrsBlasProof.
Set Implicit Arguments.

Section CrsConv.
Context {F : Type} {SF : Scalar F} {SC : Schedule}.
Local Notation triple := (nat * nat * F)%type.
Local Notation D := (0, 0, f0).

Lemma crs_resize_ok (a : crs F) N Val :
  crs_buf a -> m_own a = true ->
  exists a', crs_resize a N Val = Ok a' /\ crs_buf a' /\ m_own a' = true /\ m_nnz a' = N /\
    m_row a' = m_row a /\ m_col a' = m_col a /\ m_rp a' = m_rp a /\ m_ci a' = m_ci a.
Proof.
  intros (H1 & H2 & H4) H3. unfold crs_resize, crs_buf.
  destruct (Nat.ltb_spec (m_first a + N) (m_alloc a)) as [Hs|Hs].
  - destruct (le_lt_dec (m_nnz a) N) as [Hle|Hgt].
    + destruct (@fill_loop F f0 Val (m_nnz a) N (m_first a) (m_val a)) as (t & E & HL & _); try lia.
      rewrite E. cbn [bind]. eexists; split; [reflexivity|]. msimpl. repeat split; auto; lia.
    + rewrite for_empty by lia. cbn [bind]. eexists; split; [reflexivity|]. msimpl.
      repeat split; auto; lia.
  - rewrite H3.
    rewrite (@copy_loop0 F f0) by (rewrite ?repeat_length; lia). cbn [bind].
    rewrite fill_loop0 by (rewrite ?app_length, ?firstn_length, ?skipn_length, ?repeat_length; lia).
    cbn [bind]. eexists; split; [reflexivity|]. msimpl.
    rewrite !app_length, ?firstn_length, ?skipn_length, ?repeat_length, ?app_length, ?firstn_length,
      ?skipn_length, ?repeat_length.
    repeat split; auto; lia.
Qed.

(** *** COO -> CRS *)

(** [n] separates the entries with row <= r from the others, among the first [i] *)
Definition cut (row : nat -> nat) (i r n : nat) : Prop :=
  n <= i /\ (forall k, k < n -> row k <= r) /\ (forall k, n <= k < i -> r < row k).

Lemma rowptr_loop (rows : list nat) nnz M (rp0 : list nat) :
  nnz <= length rows -> length rp0 = M + 1 -> nth 0 rp0 0 = 0 ->
  (forall k, k < nnz -> nth k rows 0 < M) ->
  (forall k k', k <= k' -> k' < nnz -> nth k rows 0 <= nth k' rows 0) ->
  exists rp crow, for_ 0 nnz (fun i st =>
      let '(rp, crow) := st in
      r <- rd rows i ;;
      if crow =? r then
        rp <- wr rp (crow + 1) (i + 1) ;; Ok (rp, crow)
      else
        rp <- for_ (crow + 1) r (fun j rp => wr rp (j + 1) i) rp ;;
        rp <- wr rp (r + 1) (i + 1) ;; Ok (rp, r)) (rp0, 0) = Ok (rp, crow) /\
    length rp = M + 1 /\ nth 0 rp 0 = 0 /\
    crow = (if nnz =? 0 then 0 else nth (nnz - 1) rows 0) /\
    (forall r, r <= crow -> 0 < r \/ (0 < nnz /\ nth 0 rows 0 = 0) \/ nth 1 rp0 0 = 0 ->
       (0 < nnz \/ nth 1 rp0 0 = 0) -> cut (fun k => nth k rows 0) nnz r (nth (r + 1) rp 0)) /\
    (forall r, crow < r -> nth (r + 1) rp 0 = nth (r + 1) rp0 0).
Proof.
  intros HL HM H0 HR HS.
  match goal with |- exists rp crow, for_ _ _ ?b _ = _ /\ _ => set (body := b) end.
  destruct (@for0_inv (list nat * nat) (fun i st => let '(rp, crow) := st in
    length rp = M + 1 /\ nth 0 rp 0 = 0 /\
    crow = (if i =? 0 then 0 else nth (i - 1) rows 0) /\
    (forall r, r <= crow -> 0 < r \/ (0 < i /\ nth 0 rows 0 = 0) \/ nth 1 rp0 0 = 0 ->
       (0 < i \/ nth 1 rp0 0 = 0) -> cut (fun k => nth k rows 0) i r (nth (r + 1) rp 0)) /\
    (forall r, crow < r -> nth (r + 1) rp 0 = nth (r + 1) rp0 0) /\
    (i = 0 -> rp = rp0) /\
    (nth 0 rows 0 > 0 -> nth 1 rp 0 = nth 1 rp0 0)) nnz body (rp0, 0)) as ([rp crow] & E & I).
  - split; auto. split; auto. split; auto. split; [|auto].
    intros r Hr _ [?|H1]; [lia|]. assert (r = 0) by lia. subst. cbn [Nat.add]. rewrite H1.
    repeat split; intros; lia.
  - intros i [rp crow] Hi (I1 & I2 & I3 & I4 & I5 & I6 & I7). unfold body.
    rewrite (@rd_lt nat rows i 0) by lia. cbn [bind].
    set (r := nth i rows 0) in *.
    assert (Hr : r < M) by (apply HR; auto).
    assert (Hcr : crow <= r).
    { rewrite I3. destruct (Nat.eqb_spec i 0); [lia|]. apply HS; lia. }
    assert (Hall : forall k, k < i -> nth k rows 0 <= crow).
    { intros k Hk. rewrite I3. destruct (Nat.eqb_spec i 0); [lia|]. apply HS; lia. }
    assert (Hfst : nth 0 rows 0 <= crow \/ i = 0).
    { destruct (Nat.eq_dec i 0); auto. left. apply Hall. lia. }
    destruct (Nat.eqb_spec crow r) as [He|He].
    + rewrite wr_lt by lia. cbn [bind]. eexists; split; [reflexivity|]. cbn iota beta.
      split; [now rewrite upd_length|]. split; [rewrite nth_upd_other by lia; auto|].
      split; [replace (S i - 1) with i by lia; cbn; auto|].
      split; [|split; [|split]].
      * intros q Hq Hc Hd. destruct (Nat.eq_dec q crow) as [->|Hne].
        -- rewrite nth_upd_same by lia. split; [lia|]. split; [|intros; lia].
           intros k Hk. destruct (Nat.eq_dec k i) as [->|]; [fold r; lia|apply Hall; lia].
        -- rewrite nth_upd_other by lia. destruct (Nat.eq_dec i 0) as [->|Hi0].
           { rewrite I3 in Hq. cbn in Hq. assert (q = 0) by lia. rewrite I3 in Hne. cbn in Hne. lia. }
           destruct (I4 q) as (C1 & C2 & C3); try lia.
           split; [lia|]. split; auto. intros k Hk.
           destruct (Nat.eq_dec k i) as [->|]; [fold r; lia|apply C3; lia].
      * intros q Hq. rewrite nth_upd_other by lia. auto.
      * intros; lia.
      * intros Hg. rewrite nth_upd_other; auto. 
        destruct (Nat.eq_dec i 0) as [->|]; [fold r in Hg; rewrite I3 in He; cbn in He; lia|lia].
    + destruct (@elem_loop nat 0 (fun _ _ => i) (crow + 1) r 1 (fun j rp => wr rp (j + 1) i) rp)
        as (rp' & E & HL' & HN); try lia.
      { intros j t' Hj HLt. rewrite wr_lt by lia. now rewrite Nat.add_comm. }
      rewrite E. cbn [bind]. rewrite wr_lt by lia. cbn [bind]. eexists; split; [reflexivity|]. cbn iota beta.
      assert (HN2 : forall q, nth (q + 1) (upd rp' (r + 1) (i + 1)) 0 =
         if q =? r then i + 1 else if (crow <? q) && (q <? r) then i else nth (q + 1) rp 0).
      { intros q. destruct (Nat.eqb_spec q r) as [->|Hqr]; [rewrite nth_upd_same by lia; auto|].
        rewrite nth_upd_other by lia. rewrite HN.
        destruct (Nat.leb_spec (1 + (crow + 1)) (q + 1)); destruct (Nat.ltb_spec (q + 1) (1 + r));
        destruct (Nat.ltb_spec crow q); destruct (Nat.ltb_spec q r); cbn [andb]; try lia; auto. }
      split; [rewrite upd_length; lia|].
      split. { rewrite nth_upd_other by lia. rewrite HN.
        destruct (Nat.leb_spec (1 + (crow + 1)) 0); [lia|]. auto. }
      split; [replace (S i - 1) with i by lia; cbn; auto|].
      split; [|split; [|split]].
      * intros q Hq Hc Hd. rewrite HN2.
        destruct (Nat.eqb_spec q r) as [->|Hqr].
        { split; [lia|]. split; [|intros; lia]. intros k Hk.
          destruct (Nat.eq_dec k i) as [->|]; [fold r; lia|].
          assert (nth k rows 0 <= crow) by (apply Hall; lia). lia. }
        destruct (Nat.ltb_spec crow q); cbn [andb].
        { destruct (Nat.ltb_spec q r); [|lia]. split; [lia|]. split.
          - intros k Hk. assert (nth k rows 0 <= crow) by (apply Hall; lia). lia.
          - intros k Hk. replace k with i by lia. fold r. lia. }
        destruct (Nat.eq_dec i 0) as [->|Hi0].
        { rewrite I3 in *. cbn in H. assert (q = 0) by lia. subst q. cbn [Nat.add].
          assert (Hrp : nth 1 rp0 0 = 0).
          { fold r in Hc. cbn [Nat.eqb] in *. destruct Hc as [?|[[_ ?]|?]]; auto; lia. }
          rewrite I6 by auto. rewrite Hrp. split; [lia|]. split; [intros; lia|].
          intros k Hk. replace k with 0 by lia. fold r. cbn in He. lia. }
        destruct (I4 q) as (C1 & C2 & C3); [lia| |lia|].
        { destruct Hc as [?|[[_ ?]|?]]; [left; lia|right; left; lia|right; right; lia]. }
        split; [lia|]. split; auto. intros k Hk.
        destruct (Nat.eq_dec k i) as [->|]; [fold r; lia|apply C3; lia].
      * intros q Hq. rewrite HN2. destruct (Nat.eqb_spec q r); [lia|].
        destruct (Nat.ltb_spec q r); [lia|]. rewrite andb_false_r. apply I5. lia.
      * intros; lia.
      * intros Hg. specialize (HN2 0). cbn [Nat.add] in HN2. rewrite HN2.
        destruct (Nat.eqb_spec 0 r); [lia|].
        destruct (Nat.ltb_spec crow 0); [lia|]. cbn [andb]. auto.
  - exists rp, crow. split; [exact E|]. destruct I as (I1 & I2 & I3 & I4 & I5 & I6 & I7). auto.
Qed.

(** entries grouped by row *)
Lemma rows_of_entries (a : crs F) ts i : crs_entries a = ts -> i < m_row a ->
  crs_row a i = map (fun t => (snd (fst t), snd t)) (filter (fun t => fst (fst t) =? i) ts).
Proof.
  intros <- Hi. rewrite crs_entries_filter by auto. rewrite map_map.
  rewrite <- (map_id (crs_row a i)) at 1. apply map_ext. now intros [].
Qed.


(** a row_ptr that cuts the row-sorted entries of [c] makes a valid CRS of [c] *)
Lemma cut_crs (A : crs F) (c : coo F) :
  coo_ok c -> in_range (c_row c) (c_col c) (coo_entries c) -> row_sorted (coo_entries c) ->
  m_row A = c_row c -> m_col A = c_col c -> m_ci A = c_ci c -> m_nnz A = c_nnz c -> m_first A = 0 ->
  length (m_val A) = m_alloc A -> m_nnz A <= m_alloc A ->
  (forall k, k < c_nnz c -> vln A k = nth k (c_val c) f0) ->
  length (m_rp A) = c_row c + 1 -> nth 0 (m_rp A) 0 = 0 ->
  (forall r, r < c_row c -> cut (fun k => nth k (c_ri c) 0) (c_nnz c) r (nth (r + 1) (m_rp A) 0)) ->
  crs_ok A /\ crs_entries A = coo_entries c.
Proof.
  intros Wc HR HS Ar Ac Aci An Af Al Aa Av R1 R2 HK. pose proof Wc as (C1 & C2 & C3 & C4 & C5).
  set (rp := m_rp A) in *. set (rows := c_ri c) in *.
  assert (HE : forall k, k < c_nnz c -> nth k (coo_entries c) D = (nth k rows 0, nth k (c_ci c) 0, nth k (c_val c) f0))
    by (intros; apply coo_entries_nth; auto).
  assert (HLe := coo_entries_length Wc).
  assert (HRk : forall k, k < c_nnz c -> nth k rows 0 < c_row c /\ nth k (c_ci c) 0 < c_col c).
  { intros k Hk. unfold in_range in HR. rewrite Forall_forall in HR.
    specialize (HR (nth k (coo_entries c) D)). rewrite HE in HR by auto. cbn [fst snd] in HR. apply HR.
    rewrite <- HE by auto. apply nth_In. lia. }
  assert (HrpA : forall i, rpn A i = nth i rp 0) by reflexivity.
  assert (HW : crs_ok A).
  { unfold crs_ok. split; [|split; [|split; [|split; [|split; [|split; [|split]]]]]].
    - fold rp. lia.
    - auto.
    - intros i Hi. rewrite !HrpA. rewrite Ar in Hi.
      destruct i as [|i]; [rewrite R2; lia|].
      destruct (HK i) as (_ & K1 & K2); [lia|]. destruct (HK (S i)) as (K3 & _ & K4); [lia|].
      replace (i + 1) with (S i) in * by lia.
      destruct (Nat.le_gt_cases (nth (S i) rp 0) (nth (S i + 1) rp 0)) as [|G]; auto.
      specialize (K1 (nth (S i + 1) rp 0) G).
      assert (nth (S i) rp 0 <= c_nnz c) by (destruct (HK i) as (Q & _); [lia|]; replace (i + 1) with (S i) in Q by lia; auto).
      specialize (K4 (nth (S i + 1) rp 0)). lia.
    - rewrite HrpA, Ar, An.
      destruct (c_row c) as [|m] eqn:EM.
      + rewrite R2. destruct (c_nnz c) as [|n] eqn:En; auto. destruct (HRk 0); lia.
      + destruct (HK m) as (K1 & K2 & K3); [lia|]. replace (m + 1) with (S m) in * by lia.
        destruct (Nat.eq_dec (nth (S m) rp 0) (c_nnz c)) as [|Hne]; auto.
        specialize (K3 (nth (S m) rp 0)). destruct (HRk (nth (S m) rp 0)); lia.
    - rewrite Aci. lia.
    - intros k Hk. unfold cin. rewrite Aci, Ac. apply HRk. lia.
    - auto.
    - lia. }
  split; auto.
  apply list_ext with (d := D).
  - rewrite crs_entries_length, HLe by auto. auto.
  - intros k Hk. rewrite crs_entries_length in Hk by auto.
    assert (Hk' : k < c_nnz c) by lia. destruct (HRk k Hk') as [Hr1 Hr2].
    rewrite (@crs_entries_nth F SF A (nth k rows 0)); auto.
    + rewrite HE, Av by auto. unfold cin. now rewrite Aci.
    + lia.
    + rewrite !HrpA. set (r := nth k rows 0) in *.
      destruct (HK r) as (K1 & K2 & K3); [lia|].
      split.
      * destruct r as [|r'] eqn:Er; [rewrite R2; lia|].
        destruct (HK r') as (Q1 & Q2 & Q3); [lia|]. replace (r' + 1) with (S r') in * by lia.
        destruct (Nat.le_gt_cases (nth (S r') rp 0) k) as [|G]; auto. specialize (Q2 k G). fold r in Q2. lia.
      * destruct (Nat.lt_ge_cases k (nth (r + 1) rp 0)) as [|G]; auto. specialize (K3 k). fold r in K3. lia.
Qed.

(** [A] with the given row_ptr *)
Definition m_set_rp (A : crs F) (rp : list nat) : crs F := m_set_st A rp (m_ci A).

(** what [convert] does for every row-sorted COO: row_ptr is right up to the last non-empty row
    [crow]; above it the previous contents (value-initialised if new) are left. *)
Theorem crs_convert_coo_gen (a : crs F) (c : coo F) :
  crs_buf a -> coo_ok c -> in_range (c_row c) (c_col c) (coo_entries c) -> row_sorted (coo_entries c) ->
  (m_rp a = [] \/ exists t, In t (coo_entries c) /\ fst (fst t) = 0) ->
  exists a' rpf, crs_convert_coo a c = Ok a' /\ crs_plain a' /\ m_row a' = c_row c /\ m_col a' = c_col c /\
    m_nnz a' = c_nnz c /\ length (m_rp a') = c_row c + 1 /\ length rpf = c_row c + 1 /\
    crs_ok (m_set_rp a' rpf) /\ crs_entries (m_set_rp a' rpf) = coo_entries c /\
    exists crow, crow = (if c_nnz c =? 0 then 0 else nth (c_nnz c - 1) (c_ri c) 0) /\
    (crow < c_row c -> nth (crow + 1) rpf 0 = c_nnz c) /\
    forall i, i <= c_row c ->
      if i <=? crow + 1 then nth i (m_rp a') 0 = nth i rpf 0
      else nth i rpf 0 = c_nnz c /\ nth i (m_rp a') 0 = nth i (m_rp a) 0.
Proof.
  intros Wa Wc HR HS Hfirst. pose proof Wc as (C1 & C2 & C3 & C4 & C5).
  unfold crs_convert_coo.
  destruct (@crs_resize_ok (m_set_own (m_set_rc a (c_row c) (c_col c))) (c_nnz c) f0) as
    (a2 & E2 & Wa2 & Hown & Hn & Hrow & Hcol & Hrp & Hci); auto.
  rewrite E2. cbn [bind]. destruct Wa2 as (B1 & B2 & B3).
  rewrite (@copy_loop0 F f0) by (cbn in *; lia). cbn [bind].
  set (rp0 := vresize 0 (m_rp a2) (c_row c + 1)).
  assert (HL0 : length rp0 = c_row c + 1) by apply vresize_length.
  assert (HN0 : forall q, q <= c_row c -> nth q rp0 0 = nth q (m_rp a) 0).
  { intros q Hq. unfold rp0. rewrite Hrp. cbn [m_rp m_set_own m_set_rc].
    rewrite nth_vresize by lia.
    destruct (Nat.ltb_spec q (length (m_rp a))); auto. now rewrite nth_overflow by lia. }
  rewrite wr_lt by lia. cbn [bind].
  set (rows := c_ri c).
  assert (HE : forall k, k < c_nnz c -> nth k (coo_entries c) D = (nth k rows 0, nth k (c_ci c) 0, nth k (c_val c) f0))
    by (intros; apply coo_entries_nth; auto).
  assert (HLe := coo_entries_length Wc).
  assert (HRk : forall k, k < c_nnz c -> nth k rows 0 < c_row c /\ nth k (c_ci c) 0 < c_col c).
  { intros k Hk. unfold in_range in HR. rewrite Forall_forall in HR.
    specialize (HR (nth k (coo_entries c) D)). rewrite HE in HR by auto. cbn [fst snd] in HR. apply HR.
    rewrite <- HE by auto. apply nth_In. lia. }
  assert (HSk : forall k k', k <= k' -> k' < c_nnz c -> nth k rows 0 <= nth k' rows 0).
  { intros k k' H1 H2. destruct (Nat.eq_dec k k') as [->|]; auto.
    pose proof (@strongly_sorted_nth _ _ D _ HS k k') as G.
    rewrite !HE in G by lia. cbn [fst] in G. apply G; lia. }
  destruct (@rowptr_loop rows (c_nnz c) (c_row c) (upd rp0 0 0)) as (rp & crow & E & R1 & R2 & R3 & R4 & R5).
  { unfold rows. lia. }
  { now rewrite upd_length. }
  { apply nth_upd_same. lia. }
  { intros k Hk. apply HRk; auto. }
  { auto. }
  rewrite E. cbn [bind].
  set (rpf := map (fun i => if i <=? crow + 1 then nth i rp 0 else c_nnz c) (seq 0 (c_row c + 1))).
  assert (Hrpf : forall i, i <= c_row c -> nth i rpf 0 = if i <=? crow + 1 then nth i rp 0 else c_nnz c)
    by (intros; unfold rpf; rewrite nth_map_seq by lia; reflexivity).
  eexists; exists rpf. split; [reflexivity|].
  split; [split; auto|]. split; [msimpl; auto|]. split; [msimpl; auto|]. split; [msimpl; auto|].
  split; [msimpl; auto|]. split; [unfold rpf; rewrite map_length, seq_length; auto|].
  assert (Z1 : m_rp a = [] -> 0 < c_row c -> nth 1 (upd rp0 0 0) 0 = 0).
  { intros G HM. rewrite nth_upd_other, HN0, G by lia. reflexivity. }
  match goal with |- crs_ok (m_set_rp ?x rpf) /\ _ => set (A := x) end.
  assert (HC : crs_ok (m_set_rp A rpf) /\ crs_entries (m_set_rp A rpf) = coo_entries c).
  { apply (@cut_crs (m_set_rp A rpf) c); auto; unfold m_set_rp, A; msimpl; auto;
    try (rewrite app_length, firstn_length, skipn_length; cbn in *; lia); try lia.
    - intros k Hk. unfold vln, A; msimpl. rewrite B3. cbn [Nat.add].
      rewrite app_nth1 by (rewrite firstn_length; lia). now rewrite nth_firstn.
    - unfold rpf. now rewrite map_length, seq_length.
    - rewrite Hrpf by lia. cbn [Nat.leb]. auto.
    - intros r Hr. rewrite Hrpf by lia. destruct (Nat.leb_spec (r + 1) (crow + 1)) as [Hc|Hc].
      + apply R4; [lia| |]; destruct Hfirst as [He|(t0 & Ht0 & Ht0r)].
        * right. right. apply Z1; auto; lia.
        * right. left. apply In_nth with (d := D) in Ht0. destruct Ht0 as (k0 & Hk0 & <-).
          rewrite HLe in Hk0. rewrite HE in Ht0r by auto. cbn [fst] in Ht0r.
          assert (nth 0 rows 0 <= nth k0 rows 0) by (apply HSk; lia). lia.
        * right. apply Z1; auto; lia.
        * left. apply In_nth with (d := D) in Ht0. destruct Ht0 as (k0 & Hk0 & <-). lia.
      + split; [lia|]. split; [|lia].
        intros k Hk. destruct (Nat.eqb_spec (c_nnz c) 0); [lia|].
        assert (nth k rows 0 <= nth (c_nnz c - 1) rows 0) by (apply HSk; lia). fold rows. lia. }
  split; [apply HC|]. split; [apply HC|]. clear HC.
  exists crow. split; auto. split.
  { intros Hi. rewrite Hrpf by lia. rewrite Nat.leb_refl.
    destruct (R4 crow) as (K1 & K2 & K3); auto.
    - destruct Hfirst as [He|(t0 & Ht0 & Ht0r)]; [right; right; apply Z1; auto; lia|].
      right. left. apply In_nth with (d := D) in Ht0. destruct Ht0 as (k0 & Hk0 & <-).
      rewrite HLe in Hk0. rewrite HE in Ht0r by auto. cbn [fst] in Ht0r.
      assert (nth 0 rows 0 <= nth k0 rows 0) by (apply HSk; lia). lia.
    - destruct Hfirst as [He|(t0 & Ht0 & Ht0r)]; [right; apply Z1; auto; lia|].
      left. apply In_nth with (d := D) in Ht0. destruct Ht0 as (k0 & Hk0 & <-). lia.
    - destruct (Nat.eqb_spec (c_nnz c) 0); [lia|].
      destruct (Nat.eq_dec (nth (crow + 1) rp 0) (c_nnz c)); auto.
      specialize (K3 (c_nnz c - 1)). lia. }
  intros i Hi. rewrite Hrpf by lia.
  destruct (Nat.leb_spec i (crow + 1)) as [Hc|Hc]; msimpl; auto.
  split; auto. replace i with ((i - 1) + 1) by lia. rewrite R5 by lia.
  rewrite nth_upd_other by lia. apply HN0. lia.
Qed.

Theorem crs_convert_coo_ok (a : crs F) (c : coo F) :
  crs_buf a -> coo_ok c -> in_range (c_row c) (c_col c) (coo_entries c) -> row_sorted (coo_entries c) ->
  (m_rp a = [] \/ exists t, In t (coo_entries c) /\ fst (fst t) = 0) ->
  ((c_nnz c = 0 /\ m_rp a = []) \/ exists t, In t (coo_entries c) /\ fst (fst t) + 1 = c_row c) ->
  exists a', crs_convert_coo a c = Ok a' /\ crs_ok a' /\ crs_plain a' /\
    m_row a' = c_row c /\ m_col a' = c_col c /\ m_nnz a' = c_nnz c /\ crs_entries a' = coo_entries c.
Proof.
  intros Wa Wc HR HS Hfirst Hlast.
  destruct (crs_convert_coo_gen Wa Wc HR HS Hfirst) as
    (a' & rpf & E & Hp & Hr & Hc & Hn & L1 & L2 & W & HE & crow & Hcrow & Hlst & HI).
  exists a'. split; auto.
  assert (Heq : m_set_rp a' rpf = a').
  { assert (m_rp a' = rpf).
    { apply list_ext with (d := 0); [lia|]. intros i Hi. specialize (HI i ltac:(lia)).
      destruct (Nat.leb_spec i (crow + 1)) as [|G]; auto. destruct HI as [-> ->].
      destruct Hlast as [[H0 ->]|(t & Ht & Htr)].
      - rewrite H0. now destruct i.
      - exfalso. apply In_nth with (d := D) in Ht. destruct Ht as (k & Hk & <-).
        rewrite coo_entries_length in Hk by auto. rewrite coo_entries_nth in Htr by auto. cbn [fst] in Htr.
        destruct (Nat.eqb_spec (c_nnz c) 0); [lia|].
        pose proof (@strongly_sorted_nth _ _ D _ HS k (c_nnz c - 1)) as Q.
        destruct (Nat.eq_dec k (c_nnz c - 1)) as [->|]; [lia|].
        rewrite coo_entries_length in Q by auto.
        rewrite !coo_entries_nth in Q by (auto; lia). cbn [fst] in Q. lia. }
    subst rpf. destruct a'; reflexivity. }
  rewrite Heq in W, HE. auto 10.
Qed.

(** ** objects that behave like a valid CRS: the same row loops *)

Theorem crs_convert_coo_fresh (a : crs F) (c : coo F) :
  crs_buf a -> m_rp a = [] -> coo_ok c -> in_range (c_row c) (c_col c) (coo_entries c) -> row_sorted (coo_entries c) ->
  exists a' A, crs_convert_coo a c = Ok a' /\ crs_plain a' /\ m_row a' = c_row c /\ m_col a' = c_col c /\
    m_nnz a' = c_nnz c /\ crs_sim a' A /\ crs_ok A /\ crs_entries A = coo_entries c.
Proof.
  intros Wa Ha Wc HR HS.
  destruct (crs_convert_coo_gen Wa Wc HR HS (or_introl Ha)) as
    (a' & rpf & E & Hp & Hr & Hc & Hn & L1 & L2 & W & HE & crow & Hcrow & Hlst & HI).
  exists a', (m_set_rp a' rpf). do 5 (split; auto). split; [|split; auto].
  unfold crs_sim, m_set_rp; msimpl. repeat split; auto; try lia.
  intros i Hi. rewrite Hr in Hi.
  assert (G := HI i ltac:(lia)). assert (G1 := HI (i + 1) ltac:(lia)). unfold rpn; msimpl.
  rewrite Ha in *.
  assert (Z : forall q, nth q (@nil nat) 0 = 0) by now intros [].
  rewrite !Z in *.
  destruct (Nat.leb_spec i (crow + 1)), (Nat.leb_spec (i + 1) (crow + 1)); try lia.
  - right. destruct G1 as [G1 G2]. rewrite G1, G2. split; [lia|].
    replace i with (crow + 1) by lia. rewrite Hlst; lia.
Qed.

(** *** CRS -> COO *)
Theorem coo_convert_crs_ok (c : coo F) (a : crs F) :
  coo_ok c -> crs_ok a -> m_first a = 0 ->
  exists c', coo_convert_crs c a = Ok c' /\ coo_ok c' /\ c_row c' = m_row a /\ c_col c' = m_col a /\
    coo_entries c' = crs_entries a.
Proof.
  intros Wc Wa Hf. unfold coo_convert_crs.
  destruct (@coo_resize_ok F SF (mkCoo (m_row a) (m_col a) (c_ri c) (c_ci c) (c_val c) (c_nnz c) (c_alloc c) true) (m_nnz a) f0)
    as (c2 & E & W2 & Hr & Hc & Hn & Hal & _).
  { destruct Wc as (? & ? & ? & ? & ?). unfold coo_ok; csimpl. auto. }
  rewrite E. cbn [bind]. pose proof W2 as (L1 & L2 & L3 & L4 & L5).
  destruct (@crs_nest_inv F SF (list nat * list nat * list F) (fun k st => let '(ri, ci, v) := st in
     length ri = m_nnz a /\ length ci = m_nnz a /\ length v = m_nnz a /\
     forall k', k' < k -> nth k' (crs_entries a) D = (nth k' ri 0, nth k' ci 0, nth k' v f0)) a (m_row a)
     (fun i j st => let '(ri, ci, v) := st in
        ri <- wr ri j i ;;
        q <- rd (m_ci a) j ;; ci <- wr ci j q ;;
        x <- rd (m_val a) j ;; v <- wr v j x ;;
        Ok (ri, ci, v)) (vresize 0 (c_ri c2) (m_nnz a), vresize 0 (c_ci c2) (m_nnz a), c_val c2))
     as ([[ri ci] v] & EN & H1 & H2 & H3 & HN); auto.
  - rewrite !vresize_length. repeat split; auto; try lia.
  - intros i k [[ri ci] v] Hi Hk Hkn HE (H1 & H2 & H3 & HN).
    rewrite wr_lt by lia. cbn [bind]. rewrite rd_ci by auto. cbn [bind]. rewrite wr_lt by lia. cbn [bind].
    rewrite rd_val0 by auto. cbn [bind]. rewrite wr_lt by lia. cbn [bind].
    eexists; split; [reflexivity|]. cbn iota. rewrite !upd_length. repeat split; auto.
    intros k' Hk'. destruct (Nat.eq_dec k' k) as [->|].
    + rewrite !nth_upd_same by lia. auto.
    + rewrite !nth_upd_other by auto. apply HN. lia.
  - unfold crs_nest in EN. rewrite EN. cbn [bind]. eexists; split; [reflexivity|].
    match goal with |- coo_ok ?c' /\ _ => set (C := c') end.
    assert (WC : coo_ok C) by (unfold coo_ok, C; csimpl; repeat split; lia).
    split; auto. split; auto. split; auto.
    apply list_ext with (d := D).
    + rewrite coo_entries_length, crs_entries_length by auto. unfold C; csimpl. auto.
    + intros k Hk. rewrite coo_entries_length in Hk by auto. unfold C in Hk; cbn in Hk.
      rewrite coo_entries_nth by (auto; unfold C; csimpl; lia). unfold C; csimpl. symmetry. apply HN.
      assert (Hq : rpn a (m_row a) = m_nnz a) by apply Wa. lia.
Qed.

(** *** copies *)
Lemma crs_empty_buf : crs_buf (crs_empty (F:=F)).
Proof. repeat split; auto. Qed.

Lemma crs_ext_ok (A B : crs F) : crs_ok A ->
  m_row B = m_row A -> m_col B = m_col A -> m_rp B = m_rp A -> m_nnz B = m_nnz A ->
  m_nnz A <= length (m_ci B) -> (forall k, k < m_nnz A -> cin B k = cin A k /\ vln B k = vln A k) ->
  length (m_val B) = m_alloc B -> m_first B + m_nnz A <= m_alloc B ->
  crs_ok B /\ crs_entries B = crs_entries A.
Proof.
  intros W Hr Hc Hrp Hn Hci HK HL HA.
  assert (W' : crs_ok B).
  { pose proof W as (H1 & H2 & H3 & H4 & H5 & H6 & H7 & H8). unfold crs_ok, rpn in *.
    rewrite Hr, Hc, Hrp, Hn. repeat split; auto.
    intros k Hk. destruct (HK k Hk) as [-> _]. auto. }
  split; auto.
  apply list_ext with (d := D); [rewrite !crs_entries_length; auto|].
  intros k Hk. rewrite crs_entries_length, Hn in Hk by auto.
  destruct (crs_entries_ex W Hk) as (i & Hi & Hr2 & ->).
  rewrite (@crs_entries_nth F SF B i); auto; [|lia|unfold rpn; rewrite Hrp; auto].
  destruct (HK k Hk) as [-> ->]. auto.
Qed.

Theorem crs_copy_ok (m : crs F) : crs_ok m ->
  exists a, crs_copy m = Ok a /\ crs_ok a /\ crs_plain a /\ m_row a = m_row m /\ m_col a = m_col m /\
    crs_entries a = crs_entries m.
Proof.
  intros W. unfold crs_copy.
  destruct (@crs_resize_ok crs_empty (m_nnz m) f0 crs_empty_buf eq_refl) as
    (a2 & E2 & (B1 & B2 & B3) & Hown & Hn & Hrow & Hcol & Hrp & Hci).
  rewrite E2. cbn [bind]. unfold vcopyA.
  rewrite (@copy_loop0 nat 0) by (rewrite ?vresize_length; lia). cbn [bind].
  rewrite (@copy_loop0 nat 0) by (rewrite ?vresize_length; lia). cbn [bind].
  pose proof W as (_ & _ & _ & _ & M5 & _ & M7 & M8).
  destruct (@copy_loop F f0 (m_nnz m) (m_first a2) (m_first m) (m_val m) (m_val a2)) as (t & E & HL & HN); try lia.
  rewrite E. cbn [bind]. eexists; split; [reflexivity|].
  rewrite !skipn_all2, !app_nil_r, !firstn_all by (rewrite vresize_length; lia).
  match goal with |- crs_ok ?c' /\ _ => set (A := c') end.
  destruct (@crs_ext_ok m A W) as [WA HE]; auto.
  - intros k Hk. split; auto. unfold vln, A; msimpl. rewrite HN.
    rewrite (proj2 (Nat.leb_le _ _)), (proj2 (Nat.ltb_lt _ _)) by lia. cbn [andb]. f_equal. lia.
  - unfold A; msimpl. lia.
  - unfold A; msimpl. lia.
  - split; auto. split; [split; auto|]. auto.
Qed.

Theorem crs_copy_value_ok (m : crs F) value : crs_ok m -> length (m_ci m) = m_nnz m ->
  exists a, crs_copy_value m value = Ok a /\ crs_ok a /\ crs_plain a /\ m_row a = m_row m /\ m_col a = m_col m /\
    crs_entries a = map (fun t => (fst t, value)) (crs_entries m).
Proof.
  intros W Hlen. unfold crs_copy_value.
  destruct (@crs_resize_ok crs_empty (m_nnz m) f0 crs_empty_buf eq_refl) as
    (a2 & E2 & (B1 & B2 & B3) & Hown & Hn & Hrow & Hcol & Hrp & Hci).
  rewrite E2. cbn [bind]. unfold vcopyA.
  pose proof W as (M1 & _ & _ & _ & M5 & _ & M7 & M8).
  rewrite (@copy_loop0 nat 0) by (rewrite ?vresize_length; lia). cbn [bind].
  rewrite (@copy_loop0 nat 0) by (rewrite ?vresize_length; lia). cbn [bind].
  rewrite fill_loop0 by lia. cbn [bind].
  eexists; split; [reflexivity|].
  rewrite !skipn_all2, !app_nil_r, !firstn_all by (rewrite vresize_length; lia).
  match goal with |- crs_ok ?c' /\ _ => set (A := c') end.
  assert (WA : crs_ok A).
  { pose proof W as (H1 & H2 & H3 & H4 & H5 & H6 & H7 & H8). unfold crs_ok, A, rpn, cin in *. msimpl.
    rewrite Hn. repeat split; auto; [|lia].
    rewrite !app_length, firstn_length, repeat_length, skipn_length. lia. }
  split; auto. split; [split; auto|]. split; auto. split; auto.
  apply list_ext with (d := (fst D, value)).
  - rewrite map_length, !crs_entries_length; auto.
  - intros k Hk. rewrite crs_entries_length in Hk by auto.
    assert (Hk' : k < m_nnz m) by (unfold A in Hk; cbn in Hk; lia).
    rewrite (map_nth (fun t : triple => (fst t, value))).
    destruct (crs_entries_ex W Hk') as (i & Hi & Hr2 & ->).
    rewrite nth_indep with (d' := D) by (rewrite crs_entries_length; auto).
    rewrite (@crs_entries_nth F SF A i); auto. cbn [fst]. f_equal.
    unfold vln, A; msimpl. rewrite B3. rewrite firstn_O, Nat.sub_0_r. cbn [Nat.add app].
    rewrite app_nth1 by (rewrite ?repeat_length, ?firstn_length; lia).
    apply nth_repeat. lia.
Qed.

Theorem crs_convert_crs_ok (a m : crs F) : crs_buf a -> m_own a = true -> crs_ok m -> m_first m = 0 ->
  length (m_ci m) = m_nnz m ->
  exists a', crs_convert_crs a m = Ok a' /\ crs_ok a' /\ crs_plain a' /\ m_row a' = m_row m /\ m_col a' = m_col m /\
    crs_entries a' = crs_entries m /\ m_hash a' = m_hash m.
Proof.
  intros Wa Ho W Hf Hlen. unfold crs_convert_crs.
  destruct (@crs_resize_ok a (m_nnz m) f0 Wa Ho) as
    (a2 & E2 & (B1 & B2 & B3) & Hown & Hn & Hrow & Hcol & Hrp & Hci).
  rewrite E2. cbn [bind]. unfold vcopyA.
  pose proof W as (M1 & _ & _ & _ & M5 & _ & M7 & M8).
  rewrite (@copy_loop0 nat 0) by (rewrite ?vresize_length; lia). cbn [bind].
  rewrite (@copy_loop0 nat 0) by (rewrite ?vresize_length; lia). cbn [bind].
  rewrite (@copy_loop0 F f0) by (rewrite ?vresize_length; lia). cbn [bind].
  eexists; split; [reflexivity|].
  rewrite !(skipn_all2 (vresize _ _ _)), !app_nil_r, !(firstn_all2 (m_rp m)), !(firstn_all2 (m_ci m)) by (rewrite ?vresize_length; lia).
  match goal with |- crs_ok ?c' /\ _ => set (A := c') end.
  destruct (@crs_ext_ok m A W) as [WA HE]; auto.
  - intros k Hk. split; auto. unfold vln, A; msimpl. rewrite B3, Hf. cbn [Nat.add].
    rewrite app_nth1 by (rewrite firstn_length; lia). now rewrite nth_firstn.
  - unfold A; msimpl. rewrite app_length, firstn_length, skipn_length. lia.
  - unfold A; msimpl. lia.
  - split; auto. split; [split; auto|]. auto.
Qed.

(** both overrun the new col_ind when the source's col_ind is longer than its nnz *)
Lemma for_ub_hit {S} lo hi mid (body : nat -> S -> res S) s s' :
  lo <= mid < hi -> for_ lo mid body s = Ok s' -> body mid s' = UB -> for_ lo hi body s = UB.
Proof.
  intros H E HU. rewrite (@for_split S lo mid hi) by lia. rewrite E. cbn [bind].
  unfold for_. replace (hi - mid) with (Datatypes.S (hi - mid - 1)) by lia. cbn. now rewrite HU.
Qed.

Lemma vcopyA_ub {A} (d : A) n (src dst : list A) : length dst < n -> n <= length src -> vcopyA n src dst = UB.
Proof.
  intros H1 H2. unfold vcopyA.
  apply for_ub_hit with (mid := length dst) (s' := firstn (length dst) src ++ skipn (length dst) dst); [lia| |].
  - apply (@copy_loop0 A d); lia.
  - rewrite (@rd_lt A src _ d) by lia. cbn [bind]. apply wr_ge.
    rewrite app_length, firstn_length, skipn_length. lia.
Qed.

Theorem crs_copy_value_overrun (m : crs F) value : crs_ok m -> m_nnz m < length (m_ci m) ->
  crs_copy_value m value = UB.
Proof.
  intros W Hlen. unfold crs_copy_value.
  destruct (@crs_resize_ok crs_empty (m_nnz m) f0 crs_empty_buf eq_refl) as
    (a2 & E2 & (B1 & B2 & B3) & Hown & Hn & Hrow & Hcol & Hrp & Hci).
  rewrite E2. cbn [bind]. unfold vcopyA at 1.
  pose proof W as (M1 & _ & _ & _ & M5 & _ & M7 & M8).
  rewrite (@copy_loop0 nat 0) by (rewrite ?vresize_length; lia). cbn [bind].
  rewrite (vcopyA_ub 0); auto. rewrite vresize_length. lia.
Qed.

Theorem crs_convert_crs_overrun (a m : crs F) : crs_buf a -> m_own a = true -> crs_ok m ->
  m_nnz m < length (m_ci m) -> crs_convert_crs a m = UB.
Proof.
  intros Wa Ho W Hlen. unfold crs_convert_crs.
  destruct (@crs_resize_ok a (m_nnz m) f0 Wa Ho) as
    (a2 & E2 & (B1 & B2 & B3) & Hown & Hn & Hrow & Hcol & Hrp & Hci).
  rewrite E2. cbn [bind]. unfold vcopyA at 1.
  pose proof W as (M1 & _ & _ & _ & M5 & _ & M7 & M8).
  rewrite (@copy_loop0 nat 0) by (rewrite ?vresize_length; lia). cbn [bind].
  rewrite (vcopyA_ub 0); auto. rewrite vresize_length. lia.
Qed.

End CrsConv.
