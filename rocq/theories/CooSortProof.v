(** * CooSortProof: COO::sort (quicksort and merge of duplicates) *)
From Verif Require Import Base Scalar Spec Loops DenseModel CooModel Observe GSort CooProof.
Set Implicit Arguments.

Lemma nth_strongly_sorted {A} (R : A -> A -> Prop) (d : A) l :
  (forall i j, i < j < length l -> R (nth i l d) (nth j l d)) -> StronglySorted R l.
Proof.
  induction l as [|x l IH]; intros H; constructor.
  - apply IH. intros i j Hij. apply (H (S i) (S j)). cbn. lia.
  - apply Forall_forall. intros y Hy.
    destruct (In_nth l y d Hy) as (k & Hk & <-). apply (H 0 (S k)). cbn. lia.
Qed.

Lemma strongly_sorted_nth {A} (R : A -> A -> Prop) (d : A) l :
  StronglySorted R l -> forall i j, i < j < length l -> R (nth i l d) (nth j l d).
Proof.
  induction 1 as [|x l HS IH HF]; intros i j Hij; cbn in Hij; [lia|].
  destruct j as [|j]; [lia|]. destruct i as [|i]; cbn.
  - rewrite Forall_forall in HF. apply HF. apply nth_In. lia.
  - apply IH. lia.
Qed.

Definition rmap {A B} (f : A -> B) (m : res A) : res B := bind m (fun a => Ok (f a)).

Lemma bind_rmap {A B C} (f : A -> B) (m : res A) (k : B -> res C) :
  bind (rmap f m) k = bind m (fun a => k (f a)).
Proof. destruct m; reflexivity. Qed.

Lemma rmap_bind {A B C} (f : B -> C) (m : res A) (k : A -> res B) :
  rmap f (bind m k) = bind m (fun a => rmap f (k a)).
Proof. destruct m; reflexivity. Qed.

Lemma bind_ext {A B} (m : res A) (k1 k2 : A -> res B) :
  (forall a, k1 a = k2 a) -> bind m k1 = bind m k2.
Proof. intros H. destruct m; cbn; auto. Qed.

Lemma rd_map {A B} (f : A -> B) l i : rd (map f l) i = rmap f (rd l i).
Proof. unfold rd. rewrite nth_error_map. destruct (nth_error l i); reflexivity. Qed.

Lemma map_upd {A B} (f : A -> B) l i a : map f (upd l i a) = upd (map f l) i (f a).
Proof. revert i; induction l as [|x l IH]; intros [|i]; cbn; auto. now rewrite IH. Qed.

Lemma wr_map {A B} (f : A -> B) l i a : wr (map f l) i (f a) = rmap (map f) (wr l i a).
Proof.
  unfold wr. rewrite map_length. destruct (i <? length l); cbn; auto. now rewrite map_upd.
Qed.

Lemma swap_at_map {A B} (f : A -> B) l i j : swap_at (map f l) i j = rmap (map f) (swap_at l i j).
Proof.
  unfold swap_at. rewrite !rd_map, bind_rmap, rmap_bind. apply bind_ext. intros x.
  rewrite bind_rmap, rmap_bind. apply bind_ext. intros y.
  rewrite wr_map, bind_rmap, rmap_bind. apply bind_ext. intros v. apply wr_map.
Qed.

Section CooSort.
Context {F : Type} {SF : Scalar F}.
Local Notation triple := (nat * nat * F)%type.

Definition unzip3 (z : list triple) : arr3 (F:=F) :=
  (map (fun t => fst (fst t)) z, map (fun t => snd (fst t)) z, map snd z).

Lemma unzip_zip n (ri ci : list nat) (v : list F) :
  length ri = n -> length ci = n -> length v = n -> unzip3 (zip3 (ri, ci, v)) = (ri, ci, v).
Proof.
  revert ri ci v; induction n as [|n IH]; intros [|a ri] [|b ci] [|x v] H1 H2 H3; cbn in *;
    try lia; auto.
  specialize (IH ri ci v). unfold unzip3, zip3 in *. cbn.
  assert (E : (map (fun t : nat * nat * F => fst (fst t)) (combine (combine ri ci) v),
       map (fun t : nat * nat * F => snd (fst t)) (combine (combine ri ci) v),
       map snd (combine (combine ri ci) v)) = (ri, ci, v)) by (apply IH; lia).
  injection E as E1 E2 E3. rewrite E1, E2, E3. auto.
Qed.

Lemma zip_unzip z : zip3 (unzip3 z) = z.
Proof.
  unfold zip3, unzip3. induction z as [|[[a b] v] z IH]; cbn; auto. now rewrite IH.
Qed.

Definition tcmp (a b : triple) : Z :=
  if negb (fst (fst a) =? fst (fst b)) then (Z.of_nat (fst (fst a)) - Z.of_nat (fst (fst b)))%Z
  else (Z.of_nat (snd (fst a)) - Z.of_nat (snd (fst b)))%Z.

Definition tle (a b : triple) : Prop := pos_le (fst a) (fst b).

Lemma tcmp_le a b : (tcmp a b <= 0)%Z <-> tle a b.
Proof. unfold tcmp, tle, pos_le. destruct (Nat.eqb_spec (fst (fst a)) (fst (fst b))); cbn; lia. Qed.

Lemma tcmp_ge a b : (tcmp a b >= 0)%Z <-> tle b a.
Proof. unfold tcmp, tle, pos_le. destruct (Nat.eqb_spec (fst (fst a)) (fst (fst b))); cbn; lia. Qed.

Lemma tle_trans a b c : tle a b -> tle b c -> tle a c.
Proof. unfold tle, pos_le. lia. Qed.

Lemma coo_cmp_sim z a p : coo_cmp (unzip3 z) a p = gcmp tcmp z a p.
Proof.
  unfold coo_cmp, gcmp, unzip3. rewrite !rd_map, !bind_rmap.
  unfold rd. destruct (nth_error z a) as [x|]; cbn; auto.
  destruct (nth_error z p) as [y|]; cbn; auto.
  unfold tcmp. destruct (fst (fst x) =? fst (fst y)); reflexivity.
Qed.

Lemma coo_scan_l_sim z fuel p h l :
  coo_scan_l fuel (unzip3 z) p h l = gscan_l tcmp fuel z p h l.
Proof.
  revert l; induction fuel as [|fuel IH]; intros l; cbn [coo_scan_l gscan_l]; rewrite coo_cmp_sim; auto.
  destruct (l <? h); auto. apply bind_ext. intros a. destruct (a <=? 0)%Z; auto.
Qed.

Lemma coo_scan_h_sim z fuel p h l :
  coo_scan_h fuel (unzip3 z) p l h = gscan_h tcmp fuel z p l h.
Proof.
  revert h; induction fuel as [|fuel IH]; intros h; cbn [coo_scan_h gscan_h]; rewrite coo_cmp_sim; auto.
  destruct (l <? h); auto. apply bind_ext. intros a. destruct (a >=? 0)%Z; auto.
Qed.

Lemma swap_at_dup {A B C} (z : list A) l h (f : A -> B) (k : list B -> list A -> res C) :
  bind (swap_at z l h) (fun a => bind (swap_at (map f z) l h) (fun b => k b a)) =
  bind (swap_at z l h) (fun a => k (map f a) a).
Proof. rewrite swap_at_map. destruct (swap_at z l h); reflexivity. Qed.

Lemma coo_swap3_sim z l h : coo_swap3 (unzip3 z) l h = rmap unzip3 (swap_at z l h).
Proof.
  unfold coo_swap3, unzip3. rewrite !swap_at_map.
  destruct (swap_at z l h); reflexivity.
Qed.

Lemma coo_part_sim fuel z p l h :
  coo_part fuel (unzip3 z) p l h = rmap (fun r => (unzip3 (fst r), snd r)) (gpart tcmp fuel z p l h).
Proof.
  revert z l h; induction fuel as [|fuel IH]; intros z l h; cbn [coo_part gpart]; auto.
  rewrite coo_scan_l_sim, rmap_bind. apply bind_ext. intros l1.
  rewrite coo_scan_h_sim, rmap_bind. apply bind_ext. intros h1.
  destruct (l1 <? h1); auto.
  rewrite coo_swap3_sim, bind_rmap, rmap_bind. apply bind_ext. intros z1. apply IH.
Qed.

Lemma coo_qsort_sim fuel z lo hi1 :
  coo_qsort fuel (unzip3 z) lo hi1 = rmap unzip3 (gqsort tcmp fuel z lo hi1).
Proof.
  revert z lo hi1; induction fuel as [|fuel IH]; intros z lo hi1; cbn [coo_qsort gqsort].
  - destruct (hi1 <=? lo + 1); reflexivity.
  - destruct (hi1 <=? lo + 1); auto.
    rewrite coo_part_sim. unfold unzip3 at 1. rewrite !rd_map.
    destruct (rd z (hi1 - 1)) as [t| | | |] eqn:Et; cbn [rmap bind]; auto.
    destruct (gpart tcmp (S (hi1 - 1 - lo)) z (hi1 - 1) lo (hi1 - 1)) as [[z1 l]| | | |];
      cbn [rmap bind]; auto.
    unfold unzip3 at 1. cbn [fst snd]. rewrite !rd_map.
    destruct (rd z1 l) as [x| | | |] eqn:Ex; cbn [rmap bind]; auto.
    rewrite (wr_map (fun t => fst (fst t)) z1 (hi1 - 1) x).
    destruct (wr z1 (hi1 - 1) x) as [z2| | | |] eqn:E1; cbn [rmap bind]; auto.
    rewrite (wr_map (fun t => fst (fst t)) z2 l t).
    destruct (wr z2 l t) as [z3| | | |] eqn:E2; cbn [rmap bind]; auto.
    rewrite (wr_map (fun t => snd (fst t)) z1 (hi1 - 1) x), E1; cbn [rmap bind].
    rewrite (wr_map (fun t => snd (fst t)) z2 l t), E2; cbn [rmap bind].
    rewrite (wr_map snd z1 (hi1 - 1) x), E1; cbn [rmap bind].
    rewrite (wr_map snd z2 l t), E2; cbn [rmap bind].
    change (map (fun t0 => fst (fst t0)) z3, map (fun t0 => snd (fst t0)) z3, map snd z3)
      with (unzip3 z3).
    destruct (l - lo <? hi1 - 1 - l); rewrite IH, bind_rmap, rmap_bind;
      apply bind_ext; intros z4; apply IH.
Qed.


(** *** sort(false) *)
Lemma seg_firstn n (z z' : list triple) d :
  n <= length z -> seg d 0 n z z' -> Permutation (firstn n z) (firstn n z').
Proof.
  intros Hn SG. pose proof (seg_len SG) as HL. destruct SG as (P & O & _).
  apply Permutation_app_inv_r with (l := skipn n z).
  replace (skipn n z) with (skipn n z') at 2.
  - now rewrite !firstn_skipn.
  - apply list_ext with (d := d).
    + rewrite !skipn_length. lia.
    + intros i Hi. rewrite !nth_skipn. apply O. lia.
Qed.

Lemma coo_qsort_ok (c : coo F) :
  coo_ok c ->
  exists z, coo_qsort (c_nnz c) (c_ri c, c_ci c, c_val c) 0 (c_nnz c) = Ok (unzip3 z) /\
    length z = c_alloc c /\ Permutation (coo_entries c) (firstn (c_nnz c) z) /\
    (forall i j, i <= j < c_nnz c -> pos_le (fst (nth i z (0,0,f0))) (fst (nth j z (0,0,f0)))).
Proof.
  intros (H1 & H2 & H3 & H4 & H5).
  rewrite <- (@unzip_zip _ (c_ri c) (c_ci c) (c_val c) H1 H2 H3).
  rewrite coo_qsort_sim.
  pose proof (@zip3_length _ (c_ri c) (c_ci c) (c_val c) _ H1 H2 H3) as HZ.
  destruct (@gqsort_ok _ (0,0,f0) tcmp tle tcmp_le tcmp_ge tle_trans (c_nnz c)
     (zip3 (c_ri c, c_ci c, c_val c)) 0 (c_nnz c)) as (z & E & SG & SO); try lia.
  rewrite E. exists z. split; [reflexivity|].
  pose proof (seg_len SG) as HL. split; [congruence|]. split.
  - apply seg_firstn with (d := (0,0,f0)); auto. rewrite !combine_length; lia.
  - intros i j Hij. apply SO; lia.
Qed.

Lemma entries_unzip M N z n al o :
  coo_entries (mkCoo M N (map (fun t : triple => fst (fst t)) z)
                         (map (fun t : triple => snd (fst t)) z) (map snd z) n al o) = firstn n z.
Proof. unfold coo_entries. csimpl. now rewrite <- (zip_unzip z) at 4. Qed.

Theorem coo_sort_nomerge (c : coo F) :
  coo_ok c ->
  exists c', coo_sort c false = Ok c' /\ coo_ok c' /\
    c_row c' = c_row c /\ c_col c' = c_col c /\ c_nnz c' = c_nnz c /\
    Permutation (coo_entries c) (coo_entries c') /\
    StronglySorted pos_le (map fst (coo_entries c')).
Proof.
  intros W. destruct (coo_qsort_ok W) as (z & E & HL & HP & HS).
  unfold coo_sort. rewrite E. unfold unzip3. cbn [bind].
  eexists; split; [reflexivity|]. rewrite entries_unzip. csimpl.
  assert (c_nnz c <= c_alloc c) by apply W.
  split; [|repeat split; auto].
  - unfold coo_ok; csimpl. rewrite !map_length. repeat split; auto; apply W.
  - apply nth_strongly_sorted with (d := fst (0,0,f0)).
    rewrite map_length, firstn_length. intros i j Hij.
    rewrite !map_nth, !nth_firstn by lia. apply HS. lia.
Qed.

(** *** sort(true) *)

(** value denoted: either nothing stored and 0, or one of the stored values *)
Lemma last_wins_in (ts : list triple) i j :
  ((exists v, In (i, j, v) ts) -> In (i, j, last_wins ts i j) ts) /\
  ((~ exists v, In (i, j, v) ts) -> last_wins ts i j = f0).
Proof.
  induction ts as [|[[r c] v] ts IH] using rev_ind.
  - split; [intros [v []]|reflexivity].
  - rewrite last_wins_snoc.
    destruct (Nat.eqb_spec r i) as [->|Hr]; [destruct (Nat.eqb_spec c j) as [->|Hc]|];
      cbn [andb].
    + split; [intros _; apply in_or_app; right; cbn; auto|].
      intros H. exfalso. apply H. exists v. apply in_or_app. cbn. auto.
    + destruct IH as [IH1 IH2]. split.
      * intros [v' Hv]. apply in_app_or in Hv. apply in_or_app. left. apply IH1.
        destruct Hv as [Hv|[Hv|[]]]; eauto. congruence.
      * intros H. apply IH2. intros [v' Hv]. apply H. exists v'. apply in_or_app. auto.
    + destruct IH as [IH1 IH2]. split.
      * intros [v' Hv]. apply in_app_or in Hv. apply in_or_app. left. apply IH1.
        destruct Hv as [Hv|[Hv|[]]]; eauto. congruence.
      * intros H. apply IH2. intros [v' Hv]. apply H. exists v'. apply in_or_app. auto.
Qed.

Lemma in_pos_dec (ts : list triple) i j : (exists v, In (i, j, v) ts) \/ ~ (exists v, In (i, j, v) ts).
Proof.
  induction ts as [|[[r c] v] ts IH].
  - right. intros [v []].
  - destruct IH as [[v' Hv]|IH]; [left; exists v'; right; auto|].
    destruct (Nat.eq_dec r i) as [->|]; [destruct (Nat.eq_dec c j) as [->|]|].
    + left. exists v. left. auto.
    + right. intros [v' [Hv|Hv]]; [congruence|]. apply IH. eauto.
    + right. intros [v' [Hv|Hv]]; [congruence|]. apply IH. eauto.
Qed.

(** two entries at one position carry the same value *)
Definition consistent (ts : list triple) : Prop :=
  forall p v v', In (p, v) ts -> In (p, v') ts -> v = v'.

Lemma last_wins_consistent (ts ts' : list triple) i j :
  consistent ts -> incl ts' ts ->
  ((exists v, In (i, j, v) ts) -> exists v, In (i, j, v) ts') ->
  last_wins ts' i j = last_wins ts i j.
Proof.
  intros HC HI HE.
  destruct (in_pos_dec ts i j) as [H|H].
  - pose proof (proj1 (last_wins_in ts i j) H) as A.
    pose proof (proj1 (last_wins_in ts' i j) (HE H)) as B.
    eapply HC; [apply HI; exact B|exact A].
  - rewrite (proj2 (last_wins_in ts i j) H). apply last_wins_in.
    intros [v Hv]. apply H. exists v. apply HI. exact Hv.
Qed.

Lemma in_firstn_nth {A} (l : list A) n x d :
  n <= length l -> (In x (firstn n l) <-> exists i, i < n /\ nth i l d = x).
Proof.
  intros Hn. split.
  - intros H. destruct (In_nth _ _ d H) as (i & Hi & E). rewrite firstn_length in Hi.
    exists i. split; [lia|]. rewrite nth_firstn in E by lia. exact E.
  - intros (i & Hi & <-). rewrite <- (nth_firstn l d Hi). apply nth_In. rewrite firstn_length. lia.
Qed.

Lemma coo_merge_ok z n :
  0 < n <= length z ->
  (forall i j, i <= j < n -> pos_le (fst (nth i z (0,0,f0))) (fst (nth j z (0,0,f0)))) ->
  exists z' k, coo_merge (unzip3 z) n = Ok (unzip3 z', k) /\ k < n /\
    length z' = length z /\
    (forall i j, i < j < k + 1 -> pos_lt (fst (nth i z' (0,0,f0))) (fst (nth j z' (0,0,f0)))) /\
    incl (firstn (k + 1) z') (firstn n z) /\
    (forall p v, In (p, v) (firstn n z) -> exists v', In (p, v') (firstn (k + 1) z')).
Proof.
  intros Hn HS. set (D := (0, 0, f0) : triple) in *.
  unfold coo_merge.
  destruct (@for_inv _ (fun i (st : arr3 * nat) => exists z' k, st = (unzip3 z', k) /\ k < i /\
    length z' = length z /\
    (forall a b, a < b < k + 1 -> pos_lt (fst (nth a z' D)) (fst (nth b z' D))) /\
    (forall a, a < k + 1 -> exists b, b < i /\ nth a z' D = nth b z D) /\
    (forall b, b < i -> exists a, a < k + 1 /\ fst (nth a z' D) = fst (nth b z D)) /\
    fst (nth k z' D) = fst (nth (i - 1) z D) /\
    (forall a, i <= a -> nth a z' D = nth a z D)) 1 n
   (fun i st =>
    let '((ri, ci, v), k) := st in
    rk <- rd ri k ;; r <- rd ri i ;;
    differ <- (if negb (rk =? r) then Ok true
               else ck <- rd ci k ;; c <- rd ci i ;; Ok (negb (ck =? c))) ;;
    '(ri, ci, k) <- (if (differ : bool) then
                       c <- rd ci i ;;
                       ri <- wr ri (k + 1) r ;; ci <- wr ci (k + 1) c ;;
                       Ok (ri, ci, k + 1)
                     else Ok (ri, ci, k)) ;;
    x <- rd v i ;; v <- wr v k x ;;
    Ok ((ri, ci, v), k)) (unzip3 z, 0)) as (st & E & z' & k & -> & Hk & HL & I1 & I2 & I3 & I4 & I5).
  - lia.
  - exists z, 0. split; auto. split; [lia|]. split; auto. split; [intros; lia|].
    split; [intros a Ha; exists a; split; auto; lia|].
    split; [intros b Hb; exists b; split; auto; lia|]. split; auto.
  - intros i st Hi (z' & k & -> & Hk & HL & I1 & I2 & I3 & I4 & I5).
    unfold unzip3 at 1. rewrite !rd_map.
    rewrite (@rd_lt _ z' k D), (@rd_lt _ z' i D) by lia. cbn [rmap bind].
    rewrite (I5 i) by lia.
    assert (Hle : pos_le (fst (nth k z' D)) (fst (nth i z D))).
    { rewrite I4. apply HS. lia. }
    (* in both cases the new array is upd z' k' (nth i z D) *)
    set (same := (fst (fst (nth k z' D)) =? fst (fst (nth i z D))) &&
                 (snd (fst (nth k z' D)) =? snd (fst (nth i z D)))).
    set (k' := if same then k else k + 1).
    exists (unzip3 (upd z' k' (nth i z D)), k'). split.
    + unfold unzip3. rewrite !map_upd.
      subst k'. unfold same.
      destruct (Nat.eqb_spec (fst (fst (nth k z' D))) (fst (fst (nth i z D)))) as [Er|Er];
        cbn [negb andb bind].
      * destruct (Nat.eqb_spec (snd (fst (nth k z' D))) (snd (fst (nth i z D)))) as [Ec|Ec];
          cbn [negb bind].
        -- rewrite wr_lt by (rewrite map_length; lia). cbn [bind].
           rewrite <- Er, <- Ec.
           rewrite <- (map_nth (fun t => fst (fst t)) z' D k).
           rewrite <- (map_nth (fun t => snd (fst t)) z' D k).
           rewrite !upd_nth_id. reflexivity.
        -- rewrite !wr_lt by (rewrite map_length; lia). cbn [bind].
           rewrite !wr_lt by (rewrite map_length; lia). reflexivity.
      * rewrite !wr_lt by (rewrite map_length; lia). cbn [bind].
        rewrite !wr_lt by (rewrite map_length; lia). reflexivity.
    + assert (Hk' : k' < S i) by (unfold k'; destruct same; lia).
      assert (Hpos : forall a, a < k' + 1 -> fst (nth a (upd z' k' (nth i z D)) D) =
                 if a =? k' then fst (nth i z D) else fst (nth a z' D)).
      { intros a Ha. destruct (Nat.eqb_spec a k') as [->|].
        - rewrite nth_upd_same by lia. auto.
        - rewrite nth_upd_other by lia. auto. }
      exists (upd z' k' (nth i z D)), k'. split; auto. split; auto.
      split; [now rewrite upd_length|]. split; [|split; [|split; [|split]]].
      * intros a b Hab. rewrite !Hpos by lia.
        destruct (Nat.eqb_spec a k'); [lia|].
        destruct (Nat.eqb_spec b k') as [->|].
        -- subst k'. unfold same in *.
           destruct (Nat.eqb_spec (fst (fst (nth k z' D))) (fst (fst (nth i z D)))) as [Er|Er];
           [destruct (Nat.eqb_spec (snd (fst (nth k z' D))) (snd (fst (nth i z D)))) as [Ec|Ec]|];
           cbn [andb] in *.
           ++ assert (X : pos_lt (fst (nth a z' D)) (fst (nth k z' D))) by (apply I1; lia).
              unfold pos_lt in *. lia.
           ++ assert (Y : pos_lt (fst (nth k z' D)) (fst (nth i z D)))
                by (unfold pos_lt, pos_le in *; lia).
              destruct (Nat.eq_dec a k) as [->|]; auto.
              assert (X : pos_lt (fst (nth a z' D)) (fst (nth k z' D))) by (apply I1; lia).
              unfold pos_lt in *; lia.
           ++ assert (Y : pos_lt (fst (nth k z' D)) (fst (nth i z D)))
                by (unfold pos_lt, pos_le in *; lia).
              destruct (Nat.eq_dec a k) as [->|]; auto.
              assert (X : pos_lt (fst (nth a z' D)) (fst (nth k z' D))) by (apply I1; lia).
              unfold pos_lt in *; lia.
        -- apply I1. unfold k' in *. destruct same; lia.
      * intros a Ha. destruct (Nat.eq_dec a k') as [->|].
        -- exists i. rewrite nth_upd_same by lia. split; auto.
        -- rewrite nth_upd_other by lia. destruct (I2 a) as (b & Hb & Eb).
           { unfold k' in *; destruct same; lia. }
           exists b. split; auto; lia.
      * intros b Hb. destruct (Nat.eq_dec b i) as [->|].
        -- exists k'. split; [lia|]. rewrite nth_upd_same by lia. auto.
        -- destruct (I3 b) as (a & Ha & Ea); [lia|].
           exists a. split; [unfold k'; destruct same; lia|].
           rewrite Hpos by (unfold k'; destruct same; lia).
           destruct (Nat.eqb_spec a k') as [->|]; auto.
           (* a = k' only in the "same" case, where the positions agree *)
           unfold k' in *. destruct same eqn:Es; [|lia].
           unfold same in Es. apply andb_prop in Es. destruct Es as [E1 E2].
           apply Nat.eqb_eq in E1, E2. rewrite <- Ea.
           destruct (fst (nth i z D)), (fst (nth k z' D)). cbn in *. congruence.
      * rewrite nth_upd_same by lia. cbn. now rewrite Nat.sub_0_r.
      * intros a Ha. rewrite nth_upd_other by lia. apply I5. lia.
  - exists z', k. split; [exact E|]. split; auto. split; auto. split; auto. split.
    + intros x Hx. apply (in_firstn_nth (n:=k+1) z' x D) in Hx; [|lia].
      destruct Hx as (a & Ha & <-). destruct (I2 a Ha) as (b & Hb & ->).
      apply (in_firstn_nth (n:=n) z _ D); [lia|]. eauto.
    + intros p v Hv. apply (in_firstn_nth (n:=n) z _ D) in Hv; [|lia].
      destruct Hv as (b & Hb & E1). destruct (I3 b Hb) as (a & Ha & E2).
      exists (snd (nth a z' D)). apply (in_firstn_nth (n:=k+1) z' _ D); [lia|].
      exists a. split; auto. rewrite E1 in E2. cbn in E2. rewrite <- E2.
      destruct (nth a z' D); reflexivity.
Qed.

Theorem coo_sort_merge (c : coo F) :
  coo_ok c -> 0 < c_nnz c ->
  exists c', coo_sort c true = Ok c' /\ coo_ok c' /\
    c_row c' = c_row c /\ c_col c' = c_col c /\ 0 < c_nnz c' <= c_nnz c /\
    StronglySorted pos_lt (map fst (coo_entries c')) /\
    incl (coo_entries c') (coo_entries c) /\
    (forall p v, In (p, v) (coo_entries c) -> exists v', In (p, v') (coo_entries c')) /\
    (consistent (coo_entries c) ->
     forall i j, last_wins (coo_entries c') i j = last_wins (coo_entries c) i j).
Proof.
  intros W Hpos. destruct (coo_qsort_ok W) as (z & E & HL & HP & HS).
  assert (c_nnz c <= c_alloc c) by apply W.
  destruct (@coo_merge_ok z (c_nnz c)) as (z' & k & EM & Hk & HL' & S1 & S2 & S3); auto; [lia|].
  unfold coo_sort. rewrite E. unfold unzip3 at 1. cbn [bind].
  unfold unzip3 in EM at 1. rewrite EM. unfold unzip3. cbn [bind].
  eexists; split; [reflexivity|]. rewrite entries_unzip. csimpl.
  assert (HI : incl (firstn (k + 1) z') (coo_entries c)).
  { intros x Hx. apply S2 in Hx. eapply Permutation_in; [symmetry; exact HP|exact Hx]. }
  assert (HE : forall p v, In (p, v) (coo_entries c) -> exists v', In (p, v') (firstn (k + 1) z')).
  { intros p v Hv. apply (S3 p v). eapply Permutation_in; eauto. }
  split; [|split; [|split; [|split; [|split; [|split; [|split]]]]]]; auto; try lia.
  - unfold coo_ok; csimpl. rewrite !map_length. repeat split; try congruence; try lia; apply W.
  - apply nth_strongly_sorted with (d := fst (0,0,f0)).
    rewrite map_length, firstn_length. intros i j Hij.
    rewrite !map_nth, !nth_firstn by lia. apply S1. lia.
  - intros HC i j. apply last_wins_consistent; auto.
    intros [v Hv]. eauto.
Qed.

End CooSort.
