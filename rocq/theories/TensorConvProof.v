(** * TensorConvProof: conversions between tensor_Dense and tensor_COO, tensor_COO::diag *)
From Coq Require Import Permutation Sorted.
From Verif Require Import Base Scalar Spec Loops DenseModel GSort CooSortProof TensorModel TensorSpec TensorProof TensorCooProof.
Set Implicit Arguments.

Section Conv.
Context {F : Type} {SF : Scalar F}.
Local Notation item := (list nat * F)%type.
Local Notation D := (([], f0) : item).

(** non-zero elements among the first n, in order *)
Definition nzs (shape : list nat) (v : nat -> F) (n : nat) : list item :=
  flat_map (fun i => if feqb (v i) f0 then [] else [(unflat shape i, v i)]) (seq 0 n).

Lemma nzs_S shape v n : nzs shape v (S n) = nzs shape v n ++ (if feqb (v n) f0 then [] else [(unflat shape n, v n)]).
Proof. unfold nzs. rewrite seq_S, flat_map_app. cbn. now rewrite app_nil_r. Qed.

Lemma nzs_len shape v n : length (nzs shape v n) <= n.
Proof. induction n as [|n IH]; [cbn; lia|]. rewrite nzs_S, app_length. destruct (feqb (v n) f0); cbn [length]; lia. Qed.

Lemma nzs_in shape v n p x : In (p, x) (nzs shape v n) <-> exists i, i < n /\ p = unflat shape i /\ x = v i /\ feqb (v i) f0 = false.
Proof.
  unfold nzs. rewrite in_flat_map. split.
  - intros (i & Hi & H). apply in_seq in Hi. destruct (feqb (v i) f0) eqn:E; cbn in H; [tauto|].
    destruct H as [H|[]]. injection H as <- <-. exists i. repeat split; auto; lia.
  - intros (i & Hi & -> & -> & E). exists i. split; [apply in_seq; lia|]. rewrite E. cbn. auto.
Qed.

Lemma vresize_id {A} (d : A) l : vresize d l (length l) = l.
Proof. unfold vresize. rewrite firstn_all, Nat.sub_diag. cbn. apply app_nil_r. Qed.

Theorem tc_convert_dense_entries (q : tcoo F) (t : tdense F) : tc_ok q -> td_ok t -> t_first t = 0 ->
  exists q', tc_convert_dense q t = Ok q' /\ tc_ok q' /\ q_shape q' = t_shape t /\
    tc_entries q' = nzs (t_shape t) (fun i => nth i (t_val t) f0) (t_nnz t).
Proof.
  intros W (T1 & T2 & T3) TF. pose proof W as (H1 & H2 & H3 & H4). unfold tc_convert_dense.
  destruct (@tc_resize_ok _ _ (mkTC (t_shape t) (q_index q) (q_val q) (q_nnz q) (q_alloc q) true) (t_nnz t) f0)
    as (q2 & E & W2 & Hs & Hn & Ha & _); qsimpl; auto; [lia|].
  rewrite E. cbn [bind]. cbn [q_shape] in Hs. rewrite Hs.
  assert (HLv : length (q_val q2) = t_nnz t) by (rewrite <- Ha; apply W2).
  set (v := fun i => nth i (t_val t) f0).
  match goal with |- context [for_ 0 (t_nnz t) ?b ?s] =>
    destruct (@for0_inv _ (fun i (st : list (list nat) * list F * nat) => let '(ix, w, nz) := st in
       ix = map fst (nzs (t_shape t) v i) /\ firstn nz w = map snd (nzs (t_shape t) v i) /\
       nz = length (nzs (t_shape t) v i) /\ length w = t_nnz t) (t_nnz t) b s) as ([[ix w] nz] & EL & I1 & I2 & I3 & I4) end.
  - cbn. auto.
  - intros i [[ix w] nz] Hi (I1 & I2 & I3 & I4). rewrite nzs_S.
    rewrite (@rd_lt _ (t_val t) i f0) by lia. cbn [bind]. change (nth i (t_val t) f0) with (v i).
    destruct (feqb (v i) f0) eqn:Ef; cbn [negb].
    + rewrite app_nil_r. eexists; split; [reflexivity|]. split; [exact I1|]. split; [exact I2|]. auto.
    + rewrite t_unindex_eq by (apply prod_pos; lia). cbn [bind]. rewrite TF. cbn [Nat.add].
      rewrite (@rd_lt _ (t_val t) i f0) by lia. cbn [bind]. change (nth i (t_val t) f0) with (v i).
      pose proof (nzs_len (t_shape t) v i).
      rewrite wr_lt by lia. cbn [bind]. eexists; split; [reflexivity|].
      rewrite !map_app, app_length, <- I1, <- I2, <- I3. cbn [map fst snd length].
      split; auto. split; [|split; [lia|now rewrite upd_length]].
      rewrite Nat.add_1_r. rewrite (@firstn_S_nth _ _ _ f0) by (rewrite upd_length; lia).
      rewrite firstn_upd_ge by lia. rewrite nth_upd_same by lia. reflexivity.
  - rewrite EL. cbn [bind]. pose proof (nzs_len (t_shape t) v (t_nnz t)).
    set (T := nzs (t_shape t) v (t_nnz t)) in *.
    destruct (@tc_resize_ok _ _ (mkTC (t_shape t) ix w (q_nnz q2) (q_alloc q2) (q_own q2)) nz f0)
      as (q3 & E3 & W3 & Hs3 & Hn3 & Ha3 & Hi3 & Hv3 & _); qsimpl; [apply W2|lia|].
    cbn [q_nnz q_index q_val q_shape] in *. exists q3. split; auto. split; auto. split; auto.
    assert (E4 : q_index q3 = map fst T).
    { rewrite Hi3, I1, I3, <- (map_length fst T). apply vresize_id. }
    apply list_ext with (d := D); [rewrite tc_entries_length by auto; lia|].
    intros i Hi. rewrite tc_entries_length in Hi by auto. rewrite tc_entries_nth by auto.
    rewrite Hv3 by lia. rewrite <- (@nth_firstn _ w nz i f0) by lia. rewrite I2, E4.
    assert (X1 : nth i (map fst T) [] = fst (nth i T D)) by exact (map_nth fst T D i).
    assert (X2 : nth i (map snd T) f0 = snd (nth i T D)) by exact (map_nth snd T D i).
    rewrite X1, X2. destruct (nth i T D); reflexivity.
Qed.

Lemma nzs_inside shape v n p x : n <= prod shape -> In (p, x) (nzs shape v n) -> inside shape p.
Proof.
  intros Hn H. apply nzs_in in H. destruct H as (i & Hi & -> & _). apply unflat_inside, prod_pos. lia.
Qed.

Lemma unflat_row_major_small shape i : i < prod shape -> row_major shape (unflat shape i) = i.
Proof. intros H. rewrite unflat_row_major by (apply prod_pos; lia). now apply Nat.mod_small. Qed.

Lemma unflat_of_row_major shape p : inside shape p -> unflat shape (row_major shape p) = p.
Proof.
  intros H. pose proof (row_major_lt H). apply (@row_major_inj shape); auto.
  - apply unflat_inside, prod_pos. lia.
  - now apply unflat_row_major_small.
Qed.

Lemma nzs_last_at shape v n pos : n <= prod shape -> inside shape pos ->
  last_at (nzs shape v n) pos =
  if row_major shape pos <? n then (if feqb (v (row_major shape pos)) f0 then f0 else v (row_major shape pos)) else f0.
Proof.
  induction n as [|n IH]; intros Hn Hp.
  - reflexivity.
  - rewrite nzs_S. destruct (feqb (v n) f0) eqn:Ef.
    + rewrite app_nil_r, IH by (auto; lia).
      destruct (Nat.ltb_spec (row_major shape pos) n); destruct (Nat.ltb_spec (row_major shape pos) (S n)); auto; try lia.
      replace (row_major shape pos) with n by lia. now rewrite Ef.
    + rewrite last_at_snoc. destruct (list_eq_dec Nat.eq_dec (unflat shape n) pos) as [<-|Hne].
      * rewrite unflat_row_major_small by lia. destruct (Nat.ltb_spec n (S n)); [|lia]. now rewrite Ef.
      * rewrite IH by (auto; lia).
        destruct (Nat.ltb_spec (row_major shape pos) n); destruct (Nat.ltb_spec (row_major shape pos) (S n)); auto; try lia.
        exfalso. apply Hne. replace n with (row_major shape pos) by lia. now apply unflat_of_row_major.
Qed.

Lemma nzs_sorted shape v n : n <= prod shape -> StronglySorted lex_lt (map fst (nzs shape v n)).
Proof.
  intros Hn. apply nth_strongly_sorted with (d := fst D). rewrite map_length. intros i j Hij.
  rewrite !map_nth.
  assert (G : forall k, k < length (nzs shape v n) -> inside shape (fst (nth k (nzs shape v n) D))).
  { intros k Hk. destruct (nth k (nzs shape v n) D) as [p x] eqn:E. apply (@nzs_inside shape v n p x Hn). rewrite <- E. apply nth_In. auto. }
  assert (X : row_major shape (fst (nth i (nzs shape v n) D)) < row_major shape (fst (nth j (nzs shape v n) D))).
  { clear G. revert i j Hij. induction n as [|n IH]; intros i j Hij; [cbn in Hij; lia|].
    rewrite nzs_S in *. destruct (feqb (v n) f0).
    - rewrite app_nil_r in *. apply IH; auto; lia.
    - rewrite app_length in Hij. cbn in Hij.
      rewrite app_nth1 by lia. destruct (Nat.eq_dec j (length (nzs shape v n))) as [->|].
      + rewrite app_nth2, Nat.sub_diag by lia. cbn [nth fst]. rewrite unflat_row_major_small by lia.
        destruct (nth i (nzs shape v n) D) as [p x] eqn:E.
        assert (HI : In (p, x) (nzs shape v n)) by (rewrite <- E; apply nth_In; lia).
        apply nzs_in in HI. destruct HI as (m & Hm & -> & _). cbn. rewrite unflat_row_major_small by lia. lia.
      + rewrite app_nth1 by lia. apply IH; lia. }
  split.
  - apply (@row_major_lex shape); try (apply G; lia). lia.
  - intros EE. rewrite EE in X. lia.
Qed.

Theorem tc_convert_dense_full (q : tcoo F) (t : tdense F) : tc_ok q -> td_ok t -> t_first t = 0 ->
  exists q', tc_convert_dense q t = Ok q' /\ tc_ok q' /\ tc_inside q' /\ q_shape q' = t_shape t /\
    StronglySorted lex_lt (map fst (tc_entries q')) /\
    (forall p v, In (p, v) (tc_entries q') <-> inside (t_shape t) p /\ td_at t p = Ok v /\ feqb v f0 = false) /\
    (forall p x, inside (t_shape t) p -> td_at t p = Ok x -> tc_at q' p = Ok (if feqb x f0 then f0 else x)).
Proof.
  intros W WT HF. destruct (tc_convert_dense_entries W WT HF) as (q' & E & W' & Hs & HE).
  pose proof WT as (T1 & T2 & T3).
  exists q'. split; auto. split; auto. unfold tc_inside. rewrite HE, Hs.
  assert (T2' : t_nnz t <= prod (t_shape t)) by lia.
  split; [intros p v Hv; exact (@nzs_inside _ _ _ p v T2' Hv)|]. split; auto.
  split; [apply nzs_sorted; lia|]. split.
  - intros p v. rewrite nzs_in. split.
    + intros (i & Hi & -> & -> & Ef).
      assert (Hin : inside (t_shape t) (unflat (t_shape t) i)) by (apply unflat_inside, prod_pos; lia).
      split; auto. split; auto. rewrite td_at_ok by auto. unfold tel. rewrite unflat_row_major_small by lia.
      rewrite HF. reflexivity.
    + intros (Hin & Hat & Ef). rewrite td_at_ok in Hat by auto. injection Hat as <-.
      unfold tel in *. rewrite HF in *. cbn [Nat.add] in *. pose proof (row_major_lt Hin).
      exists (row_major (t_shape t) p). split; [lia|]. split; [now rewrite unflat_of_row_major|]. auto.
  - intros p x Hp Hx. rewrite td_at_ok in Hx by auto. injection Hx as <-. rewrite tc_at_ok by auto. rewrite HE.
    rewrite nzs_last_at by (auto; lia). pose proof (row_major_lt Hp).
    destruct (Nat.ltb_spec (row_major (t_shape t) p) (t_nnz t)); [|lia].
    unfold tel. rewrite HF. reflexivity.
Qed.

(** *** tensor_Dense::convert(tensor_COO) *)
Lemma td_resize_ok (t : tdense F) N Val : length (t_val t) = t_alloc t -> t_nnz t <= t_alloc t -> t_first t = 0 -> t_own t = true ->
  exists t', td_resize t N Val = Ok t' /\ length (t_val t') = t_alloc t' /\ t_nnz t' = N /\ N <= t_alloc t' /\
    t_first t' = 0 /\ t_own t' = true /\ t_shape t' = t_shape t.
Proof.
  intros H1 H2 H3 H4. unfold td_resize. rewrite H3, H4. cbn [Nat.add].
  destruct (Nat.ltb_spec N (t_alloc t)).
  - assert (G : exists v, for_ (t_nnz t) N (fun i v => wr v i Val) (t_val t) = Ok v /\ length v = t_alloc t).
    { destruct (le_lt_dec (t_nnz t) N).
      - rewrite fill_loop0 by lia. eexists; split; [reflexivity|].
        rewrite !app_length, firstn_length, repeat_length, skipn_length. lia.
      - rewrite for_empty by lia. eauto. }
    destruct G as (v & -> & Hv). cbn [bind]. eexists; split; [reflexivity|]. cbn. repeat split; auto; lia.
  - rewrite (@copy_loop0 F f0) by (rewrite ?repeat_length; lia). cbn [bind].
    rewrite fill_loop0 by (rewrite ?app_length, ?firstn_length, ?skipn_length, ?repeat_length; lia).
    cbn [bind]. eexists; split; [reflexivity|]. cbn [t_val t_alloc t_nnz t_first t_own t_shape].
    repeat split; auto. rewrite !app_length, !firstn_length, !repeat_length, !skipn_length, app_length, firstn_length, skipn_length, repeat_length. lia.
Qed.

Theorem td_convert_coo_ok (t : tdense F) (q : tcoo F) :
  length (t_val t) = t_alloc t -> t_nnz t <= t_alloc t -> t_first t = 0 ->
  tc_ok q -> tc_inside q ->
  exists t', td_convert_coo t q = Ok t' /\ td_ok t' /\ td_plain t' /\ t_shape t' = q_shape q /\
    forall pos, inside (q_shape q) pos -> td_at t' pos = tc_at q pos.
Proof.
  intros T1 T2 TF W HI. pose proof W as (H1 & H2 & H3 & H4). unfold td_convert_coo, td_resize_shape.
  destruct (@td_resize_ok (t_set_own (t_set_shape t (q_shape q))) (t_count (q_shape q)) f0) as (t1 & E1 & A1 & A2 & A3 & A4 & A5 & A6);
    cbn [t_set_own t_set_shape t_val t_alloc t_nnz t_first t_own]; auto.
  rewrite E1. cbn [bind t_set_shape t_nnz t_val]. rewrite fill_loop0 by lia. cbn [bind].
  cbn [firstn app]. rewrite Nat.sub_0_r.
  set (v0 := repeat f0 (t_nnz t1) ++ skipn (t_nnz t1) (t_val t1)).
  set (t2 := t_set_val _ v0).
  assert (L0 : length v0 = t_alloc t1) by (unfold v0; rewrite app_length, repeat_length, skipn_length; lia).
  assert (W2 : td_ok t2 /\ td_plain t2 /\ t_shape t2 = q_shape q).
  { unfold t2, td_ok, td_plain. cbn. rewrite A2, A4, t_count_eq in *. repeat split; auto; lia. }
  match goal with |- exists t', for_ 0 (q_nnz q) ?b ?s = _ /\ _ =>
    destruct (@for0_inv _ (fun k tk => td_ok tk /\ td_plain tk /\ t_shape tk = q_shape q /\
      forall pos, inside (q_shape q) pos -> td_at tk pos = Ok (last_at (firstn k (tc_entries q)) pos)) (q_nnz q) b s)
      as (t3 & E3 & B1 & B2 & B3 & B4) end.
  - destruct W2 as (W2 & P2 & S2). split; auto. split; auto. split; auto. intros pos Hp.
    rewrite td_at_ok by (auto; now rewrite S2). unfold tel. rewrite S2. cbn [firstn]. f_equal.
    pose proof (row_major_lt Hp). destruct W2 as (_ & N2 & _). destruct P2 as (F2 & _).
    rewrite F2. cbn [Nat.add]. unfold t2, v0. cbn. unfold last_at. cbn.
    rewrite app_nth1 by (rewrite repeat_length, A2, t_count_eq; lia).
    apply nth_repeat. rewrite A2, t_count_eq. lia.
  - intros k tk Hk (B1 & B2 & B3 & B4).
    rewrite (@rd_lt _ (q_index q) k []), (@rd_lt _ (q_val q) k f0) by lia. cbn [bind].
    assert (Hin : inside (q_shape q) (nth k (q_index q) [])).
    { apply (HI _ (nth k (q_val q) f0)). rewrite <- (tc_entries_nth W Hk). apply nth_In. now rewrite tc_entries_length. }
    destruct (@td_insert_full _ _ tk (nth k (q_index q) []) (nth k (q_val q) f0) B1) as (t' & Ei & C1 & C2 & C3 & C4).
    { now rewrite B3. }
    exists t'. split; auto. split; auto. split; [|split; [congruence|]].
    + rewrite td_insert_ok in Ei by (auto; now rewrite B3). injection Ei as <-. destruct B2. split; cbn; auto.
    + intros pos Hp. rewrite (@firstn_S_nth _ _ _ D) by (now rewrite tc_entries_length).
      rewrite tc_entries_nth by auto. rewrite last_at_snoc.
      destruct (list_eq_dec Nat.eq_dec (nth k (q_index q) []) pos) as [<-|Hne]; auto.
      rewrite C4 by (rewrite ?B3; auto). auto.
  - exists t3. split; auto. split; auto. split; auto. split; auto. intros pos Hp. rewrite B4 by auto.
    rewrite tc_at_ok by auto. rewrite <- (tc_entries_length W), firstn_all. reflexivity.
Qed.

(** *** diag *)
Definition diag_pos (r i : nat) : list nat := repeat i r.

Lemma flag_loop (p : list nat) : p <> [] ->
  for_ 1 (length p) (fun j flag => a <- rd p 0 ;; b <- rd p j ;; Ok (if negb (a =? b) then false else flag)) true
  = Ok (if list_eq_dec Nat.eq_dec p (repeat (nth 0 p 0) (length p)) then true else false).
Proof.
  intros Hp. assert (HL : 0 < length p) by (destruct p; cbn; [congruence|lia]).
  match goal with |- for_ 1 ?n ?b ?s = _ =>
   destruct (@for_inv bool (fun k fl => fl = true <-> forall j, 1 <= j < k -> nth j p 0 = nth 0 p 0) 1 n b s) as (fl & E & H) end.
  - lia.
  - split; auto. intros; lia.
  - intros j fl Hj H. rewrite (@rd_lt _ p 0 0), (@rd_lt _ p j 0) by lia. cbn [bind]. eexists; split; [reflexivity|].
    destruct (Nat.eqb_spec (nth 0 p 0) (nth j p 0)) as [Ee|Ee]; cbn [negb].
    + rewrite H. split; intros X k Hk.
      * destruct (Nat.eq_dec k j) as [->|]; [auto|apply X; lia].
      * apply X. lia.
    + split; [discriminate|]. intros X. exfalso. apply Ee. symmetry. apply X. lia.
  - rewrite E. f_equal.
    destruct (list_eq_dec Nat.eq_dec p (repeat (nth 0 p 0) (length p))) as [Ep|Ep].
    + apply H. intros j Hj. rewrite Ep at 1. apply nth_repeat. lia.
    + destruct fl; auto. exfalso. apply Ep. apply list_ext with (d := 0); [now rewrite repeat_length|].
      intros i Hi. rewrite nth_repeat by auto. destruct i; auto. apply H; auto. lia.
Qed.

Lemma min_fold ds d : fold_left Nat.min ds d <= d /\ Forall (fun x => fold_left Nat.min ds d <= x) ds /\
  (fold_left Nat.min ds d = d \/ In (fold_left Nat.min ds d) ds).
Proof.
  revert d; induction ds as [|e ds IH]; intros d; cbn; [auto|].
  destruct (IH (Nat.min d e)) as (A & B & C). split; [lia|]. split.
  - constructor; [lia|auto].
  - destruct C as [C|C]; [|auto]. rewrite C. destruct (Nat.min_spec d e) as [[_ ->]|[_ ->]]; auto.
Qed.

Lemma repeat_inside shape i : Forall (fun d => i < d) shape -> inside shape (repeat i (length shape)).
Proof. induction 1; cbn; constructor; auto. Qed.

(** for a tensor of positive rank: element i of the result is the element (i,...,i) *)
Theorem tc_diag_ok (q : tcoo F) (vec : list F) : tc_ok q -> tc_inside q -> q_shape q <> [] ->
  Forall (fun d => length vec <= d) (q_shape q) -> In (length vec) (q_shape q) ->
  exists w, tc_diag q vec = Ok w /\ length w = length vec /\
    forall i, i < length vec -> tc_at q (repeat i (length (q_shape q))) = Ok (nth i w f0).
Proof.
  intros W HI Hne HF HIn. pose proof W as (H1 & H2 & H3 & H4).
  assert (Hm : match q_shape q with [] => False | d :: ds => fold_left Nat.min ds d = length vec end).
  { destruct (q_shape q) as [|d ds]; [congruence|]. inversion HF as [|? ? Fd Fds]; subst.
    destruct (min_fold ds d) as (A & B & C). rewrite Forall_forall in *.
    assert (fold_left Nat.min ds d <= length vec). { destruct HIn as [<-|HIn]; [auto|]. apply B. auto. }
    assert (length vec <= fold_left Nat.min ds d). { destruct C as [->|C]; auto. } lia. }
  unfold tc_diag. set (r := length (q_shape q)).
  assert (Hr : 0 < r) by (unfold r; destruct (q_shape q); cbn; [congruence|lia]).
  assert (G : exists w, (vec <- for_ 0 (length vec) (fun i w => wr w i f0) vec ;;
      for_ 0 (q_nnz q) (fun i w =>
        p <- rd (q_index q) i ;;
        flag <- for_ 1 (length p) (fun j flag =>
                  a <- rd p 0 ;; b <- rd p j ;; Ok (if negb (a =? b) then false else flag)) true ;;
        if (flag : bool) then a <- rd p 0 ;; x <- rd (q_val q) i ;; wr w a x else Ok w) vec) = Ok w /\ length w = length vec /\
    forall i, i < length vec -> tc_at q (repeat i r) = Ok (nth i w f0)).
  2:{ destruct G as (w & G & G1 & G2). exists w. split; [|auto].
      destruct (q_shape q) as [|d ds]; [congruence|]. rewrite Hm, Nat.eqb_refl. cbn [assert_ bind]. exact G. }
  rewrite fill_loop0 by lia. cbn [bind firstn app]. rewrite Nat.sub_0_r, skipn_all, app_nil_r.
  match goal with |- exists w, for_ 0 (q_nnz q) ?b ?s = _ /\ _ =>
    destruct (@for0_inv _ (fun k w => length w = length vec /\
      forall i, i < length vec -> nth i w f0 = last_at (firstn k (tc_entries q)) (repeat i r)) (q_nnz q) b s)
      as (w & E & B1 & B2) end.
  - rewrite repeat_length. split; auto. intros i Hi. cbn. apply nth_repeat. auto.
  - intros k w Hk (B1 & B2).
    rewrite (@rd_lt _ (q_index q) k []), (@rd_lt _ (q_val q) k f0) by lia. cbn [bind].
    set (p := nth k (q_index q) []). set (x := nth k (q_val q) f0).
    assert (Hin : inside (q_shape q) p).
    { apply (HI _ x). unfold p, x. rewrite <- (tc_entries_nth W Hk). apply nth_In. now rewrite tc_entries_length. }
    assert (Lp : length p = r) by (unfold r; now apply inside_length).
    assert (Hp0 : p <> []) by (destruct p; cbn in *; [lia|congruence]).
    rewrite flag_loop by auto. cbn [bind].
    rewrite (@firstn_S_nth _ _ _ D) by (now rewrite tc_entries_length). rewrite tc_entries_nth by auto. fold p x.
    destruct (list_eq_dec Nat.eq_dec p (repeat (nth 0 p 0) (length p))) as [Ep|Ep].
    + rewrite (@rd_lt _ p 0 0) by lia. cbn [bind].
      assert (Ha : nth 0 p 0 < length vec).
      { destruct (In_nth _ _ 0 HIn) as (j & Hj & Ej). rewrite <- Ej.
        assert (nth j p 0 = nth 0 p 0) by (rewrite Ep at 1; apply nth_repeat; lia).
        rewrite <- H. clear - Hin Hj Lp. unfold inside in Hin.
        revert j Hj; induction Hin as [|a d p s Ha Hi IH]; intros j Hj; [cbn in Hj; lia|].
        destruct j; cbn; auto. apply IH; [cbn in *; lia|cbn in Hj; lia]. }
      rewrite wr_lt by lia. eexists; split; [reflexivity|]. rewrite upd_length. split; auto.
      intros i Hi. rewrite last_at_snoc. destruct (list_eq_dec Nat.eq_dec p (repeat i r)) as [Ei|Ei].
      * assert (nth 0 p 0 = i) as <- by (rewrite Ei; apply nth_repeat; lia). apply nth_upd_same. lia.
      * rewrite nth_upd_other; auto. intros X. apply Ei. rewrite Ep, X, Lp. reflexivity.
    + eexists; split; [reflexivity|]. split; auto. intros i Hi. rewrite last_at_snoc.
      destruct (list_eq_dec Nat.eq_dec p (repeat i r)) as [Ei|Ei]; auto.
      exfalso. apply Ep. assert (nth 0 p 0 = i) as -> by (rewrite Ei; apply nth_repeat; lia). now rewrite Lp.
  - exists w. split; auto. split; auto. intros i Hi. rewrite tc_at_ok by auto. rewrite B2 by auto.
    rewrite <- (tc_entries_length W), firstn_all. reflexivity.
Qed.

End Conv.
