(** * CrsTransProof: CRS transpose (counting sort) *)
From Coq Require Import NArith.
From Verif Require Import Base Scalar Spec SumFacts Loops DenseModel CooModel Observe CooProof CooSortProof
  CooMiscProof CrsModel CrsObserve CrsProof CrsBlasProof CrsBlas2Proof CrsConvProof.
Set Implicit Arguments.

Section CrsTrans.
Context {F : Type} {SF : Scalar F} {SC : Schedule}.
Local Notation triple := (nat * nat * F)%type.
Local Notation D := (0, 0, f0).
Local Notation D2 := (0, f0).

(** number of entries in columns < c *)
Fixpoint csum (ts : list triple) (c : nat) : nat :=
  match c with 0 => 0 | S c' => csum ts c' + length (ent_col ts c') end.

Lemma csum_mono ts c c' : c <= c' -> csum ts c <= csum ts c'.
Proof. induction 1; cbn; lia. Qed.

Lemma csum_snoc ts (t : triple) c :
  csum (ts ++ [t]) c = csum ts c + if snd (fst t) <? c then 1 else 0.
Proof.
  induction c as [|c IH]; cbn [csum]; [destruct (Nat.ltb_spec (snd (fst t)) 0); lia|].
  rewrite IH, ent_col_snoc, app_length.
  destruct (Nat.eqb_spec (snd (fst t)) c); destruct (Nat.ltb_spec (snd (fst t)) c);
  destruct (Nat.ltb_spec (snd (fst t)) (S c)); cbn [length]; lia.
Qed.

Lemma csum_total ts M N : in_range M N ts -> csum ts N = length ts.
Proof.
  induction ts as [|t ts IH] using rev_ind; intros H.
  - clear. induction N; cbn in *; auto. rewrite IHN. auto.
  - apply Forall_app in H. destruct H as [H1 H2]. inversion H2 as [|? ? [_ Hc] ?]; subst.
    rewrite csum_snoc, IH, app_length by auto. rewrite (proj2 (Nat.ltb_lt _ _) Hc). auto.
Qed.

Lemma ent_col_firstn_le (ts : list triple) k c : length (ent_col (firstn k ts) c) <= length (ent_col ts c).
Proof.
  rewrite <- (firstn_skipn k ts) at 2. unfold ent_col. rewrite filter_app, map_app, app_length. lia.
Qed.

Lemma crs_transpose_core_ok (B : crs F) rp0 ci0 v0 :
  crs_ok B -> m_first B = 0 -> length rp0 = m_col B + 1 -> length ci0 = m_nnz B -> m_nnz B <= length v0 ->
  exists rp ci v, crs_transpose_core B (m_nnz B) rp0 ci0 v0 = Ok (rp, ci, v) /\
    length rp = m_col B + 1 /\ length ci = m_nnz B /\ length v = length v0 /\
    (forall c, c <= m_col B -> nth c rp 0 = csum (crs_entries B) c) /\
    (forall c m, c < m_col B -> m < length (ent_col (crs_entries B) c) ->
       nth m (ent_col (crs_entries B) c) D2 =
       (nth (csum (crs_entries B) c + m) ci 0, nth (csum (crs_entries B) c + m) v f0)).
Proof.
  intros W Hf HLr HLc HLv. unfold crs_transpose_core.
  set (es := crs_entries B) in *. set (n := m_col B) in *. set (nz := m_nnz B) in *.
  assert (Hes : length es = nz) by (apply crs_entries_length; auto).
  assert (Hrng : in_range (m_row B) n es) by (apply crs_in_range; auto).
  assert (Htot : csum es n = nz) by (rewrite <- Hes; eapply csum_total; eauto).
  rewrite fill_loop0 by lia. cbn [bind]. rewrite firstn_O, Nat.sub_0_r, skipn_all2, app_nil_r by lia. cbn [app].
  (* count *)
  destruct (@for0_inv (list nat) (fun k rp => length rp = n + 1 /\
     (forall c, c < n -> nth c rp 0 = length (ent_col (firstn k es) c))) nz
     (fun i rp => c <- rd (m_ci B) i ;; m <- rd rp c ;; wr rp c (m + 1)) (repeat 0 (n + 1)))
     as (rp1 & E1 & R1 & R1n).
  { split; [now rewrite repeat_length|]. intros c Hc. rewrite nth_repeat by lia. auto. }
  { intros k rp Hk [HL HN]. rewrite rd_ci by auto. cbn [bind].
    pose proof (cin_lt W Hk) as Hc. fold n in Hc.
    rewrite (@rd_lt nat rp _ 0) by lia. cbn [bind]. rewrite wr_lt by lia.
    eexists; split; [reflexivity|]. split; [now rewrite upd_length|].
    intros c Hcn. rewrite (@firstn_S_nth _ _ _ D) by lia. rewrite ent_col_snoc, app_length.
    destruct (crs_entries_ex W Hk) as (i & _ & _ & HE). fold es in HE. rewrite HE. cbn [fst snd].
    destruct (Nat.eqb_spec (cin B k) c) as [->|Hne].
    - rewrite nth_upd_same by lia. rewrite HN by auto. cbn [length]. lia.
    - rewrite nth_upd_other by auto. rewrite HN by auto. cbn [length]. lia. }
  rewrite firstn_all2 in R1n by lia.
  rewrite E1. cbn [bind].
  (* prefix sum *)
  destruct (@for0_inv (list nat * nat) (fun i st => let '(rp, sum) := st in length rp = n + 1 /\
     sum = csum es i /\ forall c, c < n -> nth c rp 0 = if c <? i then csum es c else length (ent_col es c)) n
     (fun i st => let '(rp, sum) := st in tmp <- rd rp i ;; rp <- wr rp i sum ;; Ok (rp, sum + tmp)) (rp1, 0))
     as ([rp2 sum2] & E2 & R2 & _ & R2n).
  { repeat split; auto. }
  { intros i [rp sum] Hi (HL & -> & HN). rewrite (@rd_lt nat rp _ 0) by lia. cbn [bind].
    rewrite wr_lt by lia. cbn [bind]. eexists; split; [reflexivity|]. cbn iota.
    split; [now rewrite upd_length|]. split.
    - rewrite HN by auto. rewrite Nat.ltb_irrefl. reflexivity.
    - intros c Hc. destruct (Nat.eq_dec i c) as [<-|Hne].
      + rewrite nth_upd_same by lia. rewrite (proj2 (Nat.ltb_lt _ _)) by lia. auto.
      + rewrite nth_upd_other by auto. rewrite HN by auto.
        destruct (Nat.ltb_spec c i); destruct (Nat.ltb_spec c (S i)); auto; lia. }
  rewrite E2. cbn [bind]. rewrite wr_lt by lia. cbn [bind].
  set (rp3 := upd rp2 n nz).
  assert (R3 : length rp3 = n + 1) by (unfold rp3; now rewrite upd_length).
  assert (R3n : forall c, c < n -> nth c rp3 0 = csum es c).
  { intros c Hc. unfold rp3. rewrite nth_upd_other by lia. rewrite R2n by auto.
    rewrite (proj2 (Nat.ltb_lt _ _)) by lia. auto. }
  assert (R3e : nth n rp3 0 = nz) by (unfold rp3; apply nth_upd_same; lia).
  (* scatter *)
  destruct (@crs_nest_inv F SF (list nat * list nat * list F) (fun k st => let '(rp, ci, v) := st in
     length rp = n + 1 /\ length ci = nz /\ length v = length v0 /\ nth n rp 0 = nz /\
     (forall c, c < n -> nth c rp 0 = csum es c + length (ent_col (firstn k es) c)) /\
     (forall c m, c < n -> m < length (ent_col (firstn k es) c) ->
       nth m (ent_col (firstn k es) c) D2 = (nth (csum es c + m) ci 0, nth (csum es c + m) v f0))) B (m_row B)
     (fun i j st => let '(rp, ci, v) := st in
        c <- rd (m_ci B) j ;;
        d <- rd rp c ;;
        ci <- wr ci d i ;;
        x <- rd (m_val B) j ;; v <- wr v d x ;;
        rp <- wr rp c (d + 1) ;;
        Ok (rp, ci, v)) (rp3, ci0, v0)) as ([[rp4 ci4] v4] & E4 & R4 & L4 & V4 & R4e & R4n & HN4); auto.
  { split; [auto|]. split; [auto|]. split; [auto|]. split; [auto|]. split.
    - intros c Hc. rewrite R3n by auto. cbn. lia.
    - intros c m Hc Hm. cbn in Hm. lia. }
  { intros i k [[rp ci] v] Hi Hk Hkn HE (HL & HLc' & HLv' & HLe & HN & HM).
    rewrite rd_ci by auto. cbn [bind]. pose proof (cin_lt W Hkn) as Hc. fold n in Hc.
    set (c0 := cin B k) in *.
    rewrite (@rd_lt nat rp _ 0) by lia. cbn [bind].
    set (d := nth c0 rp 0).
    assert (Hd : d = csum es c0 + length (ent_col (firstn k es) c0)) by (apply HN; auto).
    assert (HF : firstn (S k) es = firstn k es ++ [(i, c0, vln B k)]).
    { rewrite (@firstn_S_nth _ _ _ D) by lia. fold es in HE. now rewrite HE. }
    assert (Hlt : forall c, c < n -> csum es c + length (ent_col (firstn (S k) es) c) <= csum es (S c)).
    { intros c Hcn. cbn [csum]. pose proof (ent_col_firstn_le es (S k) c). lia. }
    assert (Hle : forall c, c < n -> csum es (S c) <= nz).
    { intros c Hcn. rewrite <- Htot. apply csum_mono. lia. }
    assert (Hlen : forall c, length (ent_col (firstn (S k) es) c) = length (ent_col (firstn k es) c) + if c0 =? c then 1 else 0).
    { intros c. rewrite HF, ent_col_snoc, app_length. cbn [fst snd]. destruct (c0 =? c); auto. }
    assert (Hd2 : d < nz).
    { pose proof (Hlt c0 Hc) as G1. pose proof (Hle c0 Hc) as G2. rewrite Hlen, Nat.eqb_refl in G1. lia. }
    rewrite wr_lt by lia. cbn [bind]. rewrite rd_val0 by auto. cbn [bind].
    rewrite wr_lt by lia. cbn [bind]. rewrite wr_lt by lia. cbn [bind].
    eexists; split; [reflexivity|]. cbn iota. rewrite !upd_length.
    split; auto. split; auto. split; auto. split; [rewrite nth_upd_other by lia; auto|]. split.
    - intros c Hcn. rewrite Hlen. destruct (Nat.eqb_spec c0 c) as [<-|Hne].
      + rewrite nth_upd_same by lia. lia.
      + rewrite nth_upd_other by auto. rewrite HN by auto. lia.
    - intros c m Hcn Hm.
      destruct (Nat.eq_dec (csum es c + m) d) as [He|He].
      + (* the written slot *)
        assert (c = c0).
        { pose proof (Hlt c Hcn). pose proof (Hlt c0 Hc) as G1. rewrite Hlen, Nat.eqb_refl in G1.
          destruct (Nat.lt_trichotomy c c0) as [G|[G|G]]; auto; exfalso.
          - assert (csum es (S c) <= csum es c0) by (apply csum_mono; lia). lia.
          - assert (csum es (S c0) <= csum es c) by (apply csum_mono; lia). lia. }
        subst c. assert (Hmm : m = length (ent_col (firstn k es) c0)) by lia.
        rewrite He, !nth_upd_same by lia.
        rewrite HF, ent_col_snoc. cbn [fst snd]. rewrite Nat.eqb_refl.
        rewrite app_nth2 by lia. rewrite Hmm, Nat.sub_diag. auto.
      + rewrite !nth_upd_other by auto. rewrite Hlen in Hm.
        assert (Hm2 : m < length (ent_col (firstn k es) c)).
        { destruct (Nat.eqb_spec c0 c) as [<-|]; lia. }
        rewrite HF, ent_col_snoc, app_nth1 by auto. auto. }
  assert (Hr : rpn B (m_row B) = nz) by apply W.
  rewrite Hr, firstn_all2 in * by lia.
  unfold crs_nest in E4. rewrite E4. cbn [bind].
  (* shift back *)
  destruct (@for0_inv (list nat * nat) (fun i st => let '(rp, sum) := st in length rp = n + 1 /\
     sum = csum es i /\ nth n rp 0 = nz /\
     forall c, c < n -> nth c rp 0 = if c <? i then csum es c else csum es c + length (ent_col es c)) n
     (fun i st => let '(rp, sum) := st in tmp <- rd rp i ;; rp <- wr rp i sum ;; Ok (rp, tmp)) (rp4, 0))
     as ([rp5 sum5] & E5 & R5 & _ & R5e & R5n).
  { repeat split; auto. }
  { intros i [rp sum] Hi (HL & -> & He & HN). rewrite (@rd_lt nat rp _ 0) by lia. cbn [bind].
    rewrite wr_lt by lia. cbn [bind]. eexists; split; [reflexivity|]. cbn iota.
    split; [now rewrite upd_length|]. split; [|split].
    - rewrite HN by auto. rewrite Nat.ltb_irrefl. reflexivity.
    - rewrite nth_upd_other by lia. auto.
    - intros c Hc. destruct (Nat.eq_dec i c) as [<-|Hne].
      + rewrite nth_upd_same by lia. rewrite (proj2 (Nat.ltb_lt _ _)) by lia. auto.
      + rewrite nth_upd_other by auto. rewrite HN by auto.
        destruct (Nat.ltb_spec c i); destruct (Nat.ltb_spec c (S i)); auto; lia. }
  rewrite E5. cbn [bind]. exists rp5, ci4, v4. split; [reflexivity|].
  split; auto. split; auto. split; auto. split; auto.
  intros c Hc. destruct (Nat.eq_dec c n) as [->|]; [lia|]. rewrite R5n by lia.
  rewrite (proj2 (Nat.ltb_lt _ _)) by lia. auto.
Qed.

Lemma ent_col_in (ts : list triple) c r v : In (r, v) (ent_col ts c) -> In (r, c, v) ts.
Proof.
  unfold ent_col. intros ([[r' c'] v'] & E & H)%in_map_iff. apply filter_In in H. cbn in *.
  destruct H as [H1 H2%Nat.eqb_eq]. inversion E; subst. auto.
Qed.

(** the object with the arrays computed above *)
Lemma crs_transpose_obj (B : crs F) rp ci v al ow h :
  crs_ok B -> length rp = m_col B + 1 -> length ci = m_nnz B -> length v = al -> m_nnz B <= al ->
  (forall c, c <= m_col B -> nth c rp 0 = csum (crs_entries B) c) ->
  (forall c m, c < m_col B -> m < length (ent_col (crs_entries B) c) ->
       nth m (ent_col (crs_entries B) c) D2 =
       (nth (csum (crs_entries B) c + m) ci 0, nth (csum (crs_entries B) c + m) v f0)) ->
  let A := mkCrs (m_col B) (m_row B) rp ci v 0 (m_nnz B) al ow h in
  crs_ok A /\ forall c, c < m_col B -> crs_row A c = ent_col (crs_entries B) c.
Proof.
  intros W HLr HLc HLv HA HR HM A.
  set (es := crs_entries B) in *.
  assert (Hes : length es = m_nnz B) by (apply crs_entries_length; auto).
  assert (Hrng : in_range (m_row B) (m_col B) es) by (apply crs_in_range; auto).
  assert (Htot : csum es (m_col B) = m_nnz B) by (rewrite <- Hes; eapply csum_total; eauto).
  assert (Hrow : forall c, c < m_col B -> crs_row A c = ent_col es c).
  { intros c Hc. assert (E1 : rpn A c = csum es c) by (unfold rpn, A; msimpl; apply HR; lia).
    assert (E2 : rpn A (c + 1) = csum es c + length (ent_col es c))
      by (unfold rpn, A; msimpl; rewrite HR, Nat.add_1_r by lia; reflexivity).
    apply list_ext with (d := D2).
    - rewrite crs_row_length. lia.
    - intros m Hm. rewrite crs_row_length in Hm.
      rewrite HM by (auto; lia). unfold crs_row. rewrite nth_map_seq by lia. rewrite E1. reflexivity. }
  split; auto.
  unfold crs_ok. split; [|split; [|split; [|split; [|split; [|split; [|split]]]]]].
  - auto.
  - unfold rpn, A; msimpl. rewrite HR by lia. auto.
  - unfold rpn, A; msimpl. intros i Hi. rewrite !HR by lia. apply csum_mono. lia.
  - unfold rpn, A; msimpl. rewrite HR by lia. auto.
  - unfold A; msimpl. lia.
  - unfold A; msimpl. intros k Hk.
    assert (exists c, c < m_col B /\ csum es c <= k < csum es (S c)) as (c & Hc & Hk2).
    { rewrite <- Htot in Hk. clear -Hk. revert Hk. generalize (m_col B). induction n as [|n IH]; cbn [csum]; intros Hk; [lia|].
      destruct (Nat.lt_ge_cases k (csum es n)) as [G|G].
      - destruct (IH G) as (c & H1 & H2). exists c. cbn [csum] in *. lia.
      - exists n. cbn [csum]. lia. }
    cbn [csum] in Hk2. specialize (HM c (k - csum es c) Hc ltac:(lia)).
    replace (csum es c + (k - csum es c)) with k in HM by lia.
    unfold cin; msimpl.
    assert (HIn : In (nth k ci 0, nth k v f0) (ent_col es c)).
    { rewrite <- HM. apply nth_In. lia. }
    apply ent_col_in in HIn. unfold in_range in Hrng. rewrite Forall_forall in Hrng. apply (Hrng _ HIn).
  - auto.
  - unfold A; msimpl. lia.
Qed.

Theorem crs_transpose_from_ok (a B : crs F) : crs_buf a -> crs_ok B -> m_first B = 0 ->
  exists a', crs_transpose_from a B = Ok a' /\ crs_ok a' /\ crs_plain a' /\
    m_row a' = m_col B /\ m_col a' = m_row B /\ m_nnz a' = m_nnz B /\
    forall c, c < m_col B -> crs_row a' c = ent_col (crs_entries B) c.
Proof.
  intros Wa W Hf. unfold crs_transpose_from.
  match goal with |- context [crs_resize ?x _ _] => set (a1 := x) end.
  destruct (@crs_resize_ok F SF a1 (m_nnz B) f0) as
    (a2 & E2 & (B1 & B2 & B3) & Hown & Hn & Hrow & Hcol & Hrp & Hci); auto.
  rewrite E2. cbn [bind]. rewrite Hn.
  destruct (@crs_transpose_core_ok B (m_rp a2) (m_ci a2) (m_val a2)) as (rp & ci & v & E & L1 & L2 & L3 & HR & HM); auto.
  { rewrite Hrp. unfold a1; msimpl. apply vresize_length. }
  { rewrite Hci. unfold a1; msimpl. apply vresize_length. }
  { lia. }
  rewrite E. cbn [bind]. eexists; split; [reflexivity|].
  match goal with |- crs_ok ?x /\ _ => set (A := x) end.
  destruct (@crs_transpose_obj B rp ci v (m_alloc a2) (m_own a2) (m_hash A) W) as [G1 G2]; auto; try lia.
  assert (EA : A = mkCrs (m_col B) (m_row B) rp ci v 0 (m_nnz B) (m_alloc a2) (m_own a2) (m_hash A)).
  { unfold A. unfold crs_compute_hash, m_set_val, m_set_st. msimpl. rewrite B3, Hn, Hrow, Hcol. reflexivity. }
  rewrite EA. split; auto. split; [split; auto|]. auto.
Qed.

Lemma crs_of_arrays_ok M N NNZ rp ci (v : list F) :
  M + 1 <= length rp -> NNZ <= length ci -> NNZ <= length v ->
  exists a, crs_of_arrays M N NNZ rp ci v = Ok a /\
    m_row a = M /\ m_col a = N /\ m_rp a = firstn (M + 1) rp /\ m_ci a = firstn NNZ ci /\
    m_first a = 0 /\ m_nnz a = NNZ /\ m_own a = true /\ length (m_val a) = m_alloc a /\ NNZ <= m_alloc a /\
    forall k, k < NNZ -> nth k (m_val a) f0 = nth k v f0.
Proof.
  intros H1 H2 H3. unfold crs_of_arrays.
  match goal with |- context [crs_resize ?x _ _] => set (a1 := x) end.
  destruct (@crs_resize_ok F SF a1 NNZ f0) as
    (a2 & E2 & (B1 & B2 & B3) & Hown & Hn & Hrow & Hcol & Hrp & Hci).
  { unfold a1. repeat split; auto. }
  { auto. }
  rewrite E2. cbn [bind]. unfold vcopyA. rewrite Hrp, Hci. unfold a1; msimpl.
  rewrite (@copy_loop0 nat 0) by (rewrite ?repeat_length; lia). cbn [bind].
  rewrite (@copy_loop0 nat 0) by (rewrite ?repeat_length; lia). cbn [bind].
  rewrite (@copy_loop0 F f0) by lia. cbn [bind].
  eexists; split; [reflexivity|]. msimpl.
  rewrite !skipn_all2 with (l := repeat _ _) by (rewrite repeat_length; lia). rewrite !app_nil_r.
  repeat split; auto; try lia.
  - rewrite app_length, firstn_length, skipn_length. lia.
  - intros k Hk. rewrite app_nth1 by (rewrite firstn_length; lia). now rewrite nth_firstn.
Qed.

Theorem crs_transpose_ok (a : crs F) : crs_ok a -> crs_plain a ->
  exists a', crs_transpose a = Ok a' /\ crs_ok a' /\ crs_plain a' /\
    m_row a' = m_col a /\ m_col a' = m_row a /\ m_nnz a' = m_nnz a /\
    forall c, c < m_col a -> crs_row a' c = ent_col (crs_entries a) c.
Proof.
  intros W [Hf Ho]. pose proof W as (M1 & M2 & M3 & M4 & M5 & M6 & M7 & M8). unfold crs_transpose.
  destruct (@crs_of_arrays_ok (m_row a) (m_col a) (m_nnz a) (m_rp a) (m_ci a) (m_val a)) as
    (B & EB & Br & Bc & Brp & Bci & Bf & Bn & Bo & Bl & Bal & Bv); try lia.
  rewrite EB. cbn [bind].
  destruct (@crs_ext_ok F SF a B W) as [WB HE]; auto.
  { rewrite Brp, firstn_all2; auto. lia. }
  { rewrite Bci, firstn_length. lia. }
  { intros k Hk. split.
    - unfold cin. rewrite Bci. now rewrite nth_firstn.
    - unfold vln. rewrite Bf, Hf. cbn [Nat.add]. auto. }
  { lia. }
  rewrite <- Bn.
  destruct (@crs_transpose_core_ok B (vresize 0 (m_rp a) (m_col B + 1)) (vresize 0 (m_ci a) (m_nnz B)) (m_val a))
    as (rp & ci & v & E & L1 & L2 & L3 & HR & HM); auto.
  { apply vresize_length. }
  { apply vresize_length. }
  { lia. }
  rewrite E. cbn [bind]. eexists; split; [reflexivity|].
  match goal with |- crs_ok ?x /\ _ => set (A := x) end.
  destruct (@crs_transpose_obj B rp ci v (m_alloc a) (m_own a) (m_hash A) WB) as [G1 G2]; auto; try lia.
  assert (EA : A = mkCrs (m_col B) (m_row B) rp ci v 0 (m_nnz B) (m_alloc a) (m_own a) (m_hash A)).
  { unfold A. unfold crs_compute_hash. msimpl. rewrite Hf. reflexivity. }
  rewrite EA. split; auto. split; [split; auto|]. msimpl.
  split; auto. split; auto. split; auto. rewrite <- HE, <- Bc. auto.
Qed.

(** *** transposing twice *)

Lemma filter_flat_map {A B} (p : B -> bool) (f : A -> list B) l :
  filter p (flat_map f l) = flat_map (fun a => filter p (f a)) l.
Proof. induction l as [|a l IH]; cbn; auto. now rewrite filter_app, IH. Qed.

Lemma map_flat_map {A B C} (g : B -> C) (f : A -> list B) l :
  map g (flat_map f l) = flat_map (fun a => map g (f a)) l.
Proof. induction l as [|a l IH]; cbn; auto. now rewrite map_app, IH. Qed.

Lemma flat_map_ext_in {A B} (f g : A -> list B) l :
  (forall a, In a l -> f a = g a) -> flat_map f l = flat_map g l.
Proof. induction l as [|a l IH]; cbn; auto. intros H. rewrite IH, H by auto. auto. Qed.

Lemma ent_col_row (a : crs F) c i :
  i < m_row a ->
  filter (fun p : nat * F => fst p =? i) (ent_col (crs_entries a) c) =
  map (fun p => (i, snd p)) (filter (fun p => fst p =? c) (crs_row a i)).
Proof.
  intros Hi. unfold ent_col.
  rewrite filter_map. cbn [fst snd].
  assert (E : filter (fun a0 : triple => fst (fst a0) =? i) (filter (fun t => snd (fst t) =? c) (crs_entries a)) =
     filter (fun t => snd (fst t) =? c) (filter (fun t => fst (fst t) =? i) (crs_entries a))).
  { generalize (crs_entries a). induction l as [|t l IH]; cbn [filter]; auto.
    destruct (snd (fst t) =? c) eqn:E1; destruct (fst (fst t) =? i) eqn:E2; cbn [filter]; rewrite ?E1, ?E2, IH; auto. }
  rewrite E, crs_entries_filter by auto. rewrite filter_map. cbn [fst snd]. rewrite map_map. cbn [fst snd].
  apply map_ext. auto.
Qed.

Theorem crs_transpose_twice (a a' a'' : crs F) : crs_ok a -> crs_plain a ->
  crs_transpose a = Ok a' -> crs_transpose a' = Ok a'' ->
  crs_ok a'' /\ crs_plain a'' /\ m_row a'' = m_row a /\ m_col a'' = m_col a /\
  forall i, i < m_row a -> crs_row a'' i = by_col (m_col a) (crs_row a i).
Proof.
  intros W P E1 E2.
  destruct (crs_transpose_ok W P) as (x & E & W' & P' & R1 & R2 & R3 & HR). rewrite E1 in E. inversion E; subst x.
  destruct (crs_transpose_ok W' P') as (y & E' & W'' & P'' & Q1 & Q2 & Q3 & HQ). rewrite E2 in E'. inversion E'; subst y.
  split; auto. split; auto. split; [lia|]. split; [lia|].
  intros i Hi. rewrite HQ by lia. unfold ent_col, by_col.
  unfold crs_entries at 1. rewrite filter_flat_map, map_flat_map, R1.
  apply flat_map_ext_in. intros c Hc%in_seq.
  rewrite HR by lia. rewrite filter_map, map_map. cbn [fst snd].
  rewrite ent_col_row by auto. rewrite map_map. cbn [fst snd].
  assert (G : forall l, map (fun x : nat * F => (c, snd x)) (filter (fun p => fst p =? c) l) = filter (fun p => fst p =? c) l).
  { induction l as [|[q v] l IH]; cbn; auto. destruct (Nat.eqb_spec q c); cbn; rewrite IH; subst; auto. }
  apply G.
Qed.

(** by_col: a stable sort by column *)
Lemma by_col_perm N (l : list (nat * F)) : Forall (fun p => fst p < N) l -> Permutation (by_col N l) l.
Proof.
  unfold by_col. induction 1 as [|[c v] l Hc H IH].
  - rewrite flat_map_concat_map. clear. generalize (seq 0 N). intros s. induction s; cbn; auto.
  - cbn [fst] in Hc.
    assert (G : forall n, Permutation (flat_map (fun c0 => filter (fun p : nat * F => fst p =? c0) ((c, v) :: l)) (seq 0 n))
       ((if c <? n then [(c, v)] else []) ++ flat_map (fun c0 => filter (fun p => fst p =? c0) l) (seq 0 n))).
    { induction n as [|n IHn]; [reflexivity|]. rewrite seq_S, !flat_map_app. cbn [flat_map Nat.add]. rewrite !app_nil_r.
      cbn [filter fst]. rewrite IHn.
      destruct (Nat.eqb_spec c n) as [->|Hne].
      - rewrite Nat.ltb_irrefl. rewrite (proj2 (Nat.ltb_lt _ _)) by lia. cbn [app].
        symmetry. apply Permutation_middle.
      - destruct (Nat.ltb_spec c n); destruct (Nat.ltb_spec c (S n)); try lia; cbn [app]; auto.
        }
    rewrite G, (proj2 (Nat.ltb_lt _ _) Hc). cbn [app]. now constructor.
Qed.

Lemma by_col_sorted N (l : list (nat * F)) : StronglySorted (fun p q => fst p <= fst q) (by_col N l).
Proof.
  unfold by_col. induction N as [|n IH]; [constructor|].
  rewrite seq_S, flat_map_app. cbn [flat_map Nat.add]. rewrite app_nil_r.
  apply ss_app; auto.
  - assert (G : forall l : list (nat * F), Forall (fun p => fst p = n) l -> StronglySorted (fun p q => fst p <= fst q) l).
    { induction 1 as [|p k Hp Hk IHk]; constructor; auto.
      rewrite Forall_forall in *. intros q Hq. rewrite (Hk q Hq). lia. }
    apply G. apply Forall_forall. intros p Hp%filter_In. now apply Nat.eqb_eq.
  - intros p q Hp Hq. apply in_flat_map in Hp. destruct Hp as (c & Hc%in_seq & Hp).
    apply filter_In in Hp. apply filter_In in Hq. destruct Hp as [_ Hp%Nat.eqb_eq], Hq as [_ Hq%Nat.eqb_eq]. lia.
Qed.

Lemma by_col_id N (l : list (nat * F)) : Forall (fun p => fst p < N) l -> StronglySorted (fun p q => fst p <= fst q) l -> by_col N l = l.
Proof.
  intros HF HS. unfold by_col.
  (* split off the part with columns < n *)
  assert (G : forall n, flat_map (fun c => filter (fun p : nat * F => fst p =? c) l) (seq 0 n) = filter (fun p => fst p <? n) l).
  { induction n as [|n IH].
    - cbn. clear. induction l as [|p l IH]; cbn; auto.
    - rewrite seq_S, flat_map_app. cbn [flat_map Nat.add]. rewrite app_nil_r, IH. clear IH HF.
      induction HS as [|p l HS IH HF]; auto. cbn [filter].
      destruct (Nat.ltb_spec (fst p) n); destruct (Nat.eqb_spec (fst p) n); destruct (Nat.ltb_spec (fst p) (S n));
        try lia; cbn [app].
      + now rewrite IH.
      + rewrite <- IH.
        assert (E : filter (fun q : nat * F => fst q <? n) l = []).
        { rewrite Forall_forall in HF. clear -HF e. induction l as [|q l IH]; cbn [filter]; auto.
          destruct (Nat.ltb_spec (fst q) n) as [Hlt|].
          - specialize (HF q (or_introl eq_refl)). lia.
          - apply IH. intros x Hx. apply HF. right. auto. }
        rewrite E. auto.
      + auto. }
  rewrite G. clear G HS. induction HF as [|p l Hp HF IH]; cbn [filter]; auto.
  rewrite (proj2 (Nat.ltb_lt _ _) Hp), IH. auto.
Qed.

(** matvec_T(A, x) is bit for bit matvec(transpose A, x) *)
Theorem crs_matvec_T_transpose (a a' : crs F) x y y' : crs_ok a -> crs_plain a ->
  crs_transpose a = Ok a' -> length x = m_row a -> length y = m_col a -> length y' = m_col a ->
  crs_matvec_T a x y = crs_matvec a' x y'.
Proof.
  intros W P E Hx Hy Hy'.
  destruct (crs_transpose_ok W P) as (z & E1 & W' & P' & R1 & R2 & R3 & HR). rewrite E in E1. inversion E1; subst z.
  rewrite crs_matvec_T_ok by auto. unfold crs_matvec. rewrite crs_matvec_ok by (auto; lia).
  f_equal. rewrite R1. apply map_ext_in. intros c Hc%in_seq. rewrite HR by lia. auto.
Qed.

End CrsTrans.
