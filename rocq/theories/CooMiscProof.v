(** * CooMiscProof: COO transpose, row/col/diag, comparison, copies, Dense conversions *)
From Verif Require Import Base Scalar Spec Loops DenseModel CooModel Observe CooProof CooSortProof.
Set Implicit Arguments.

Ltac dsimpl := cbn [d_row d_col d_val d_first d_nnz d_alloc d_own d_set_val d_set_rc d_set_own].

Section CooMisc.
Context {F : Type} {SF : Scalar F}.
Local Notation triple := (nat * nat * F)%type.
Local Notation D := (0, 0, f0).

Definition tswap (t : triple) : triple := (snd (fst t), fst (fst t), snd t).

Lemma last_wins_swap (ts : list triple) i j : last_wins (map tswap ts) i j = last_wins ts j i.
Proof.
  induction ts as [|[[r c] v] ts IH] using rev_ind; auto.
  rewrite map_app. change (map tswap [(r, c, v)]) with [(c, r, v)]. rewrite !last_wins_snoc, IH, andb_comm. auto.
Qed.

Lemma coo_transpose_entries (c : coo F) :
  coo_ok c -> coo_ok (coo_transpose c) /\ coo_entries (coo_transpose c) = map tswap (coo_entries c).
Proof.
  intros W.
  assert (W' : coo_ok (coo_transpose c)).
  { destruct W as (H1 & H2 & H3 & H4 & H5). repeat split; auto. }
  split; auto. apply list_ext with (d := D).
  - rewrite map_length, !coo_entries_length; auto.
  - intros i Hi. rewrite coo_entries_length in Hi by auto. cbn in Hi.
    change D with (tswap D) at 2. rewrite map_nth.
    rewrite !coo_entries_nth; auto.
Qed.

Theorem coo_transpose_at (c : coo F) i j :
  coo_ok c -> i <= c_row c -> j <= c_col c ->
  coo_at (coo_transpose c) j i = coo_at c i j.
Proof.
  intros W Hi Hj. destruct (coo_transpose_entries W) as [W' HE].
  rewrite !coo_at_ok by auto. now rewrite HE, last_wins_swap.
Qed.

Lemma coo_transpose_twice (c : coo F) : coo_transpose (coo_transpose c) = c.
Proof. destruct c; reflexivity. Qed.

(** getting the first n elements of a buffer *)
Lemma coo_val_ptr_ok (c : coo F) :
  coo_ok c -> coo_val_ptr c = Ok (firstn (c_nnz c) (c_val c)).
Proof.
  intros (H1 & H2 & H3 & H4 & H5). unfold coo_val_ptr.
  rewrite (@copy_loop0 F f0) by (rewrite ?repeat_length; lia).
  rewrite skipn_all2 by (rewrite repeat_length; lia). now rewrite app_nil_r.
Qed.

Theorem coo_transpose_from_ok (c B : coo F) :
  coo_ok c -> coo_ok B ->
  exists c', coo_transpose_from c B = Ok c' /\ coo_ok c' /\
    c_row c' = c_col B /\ c_col c' = c_row B /\
    coo_entries c' = map tswap (coo_entries B).
Proof.
  intros W WB. unfold coo_transpose_from. rewrite coo_val_ptr_ok by auto. cbn [bind].
  assert (HLv : length (firstn (c_nnz B) (c_val B)) = c_nnz B).
  { rewrite firstn_length. destruct WB as (? & ? & ? & ? & ?). lia. }
  rewrite HLv.
  destruct W as (W1 & W2 & W3 & W4 & W5), WB as (B1 & B2 & B3 & B4 & B5).
  (* resize of the intermediate object, whose index arrays are B's *)
  unfold coo_resize. csimpl.
  rewrite (@copy_loop0 F f0) by (rewrite ?repeat_length; lia). cbn [bind].
  rewrite fill_loop0 by (rewrite ?app_length, ?firstn_length, ?skipn_length, ?repeat_length; lia).
  cbn [bind]. csimpl.
  rewrite (@copy_loop0 F f0)
    by (rewrite ?app_length, ?firstn_length, ?skipn_length, ?repeat_length, ?app_length,
        ?firstn_length, ?skipn_length, ?repeat_length; lia).
  cbn [bind]. eexists; split; [reflexivity|].
  match goal with |- coo_ok ?c' /\ _ => set (C := c') end.
  assert (WC : coo_ok C).
  { unfold coo_ok, C; csimpl. rewrite !vresize_length, !app_length, !firstn_length, !skipn_length,
      !app_length, !firstn_length, !skipn_length, ?app_length, ?repeat_length,
      ?firstn_length, ?skipn_length, ?repeat_length.
    repeat split; lia. }
  split; auto. split; auto. split; auto.
  assert (WBk : coo_ok B) by (unfold coo_ok; auto).
  apply list_ext with (d := D).
  - rewrite map_length, !coo_entries_length; auto.
  - intros i Hi. rewrite coo_entries_length in Hi by auto. cbn in Hi.
    change D with (tswap D) at 2. rewrite map_nth.
    rewrite !coo_entries_nth by auto. unfold tswap, C; csimpl. cbn [fst snd].
    rewrite !nth_vresize by auto.
    destruct (Nat.ltb_spec i (length (c_ci B))); [|lia].
    destruct (Nat.ltb_spec i (length (c_ri B))); [|lia].
    f_equal.
    rewrite app_nth1 by (rewrite !firstn_length; lia).
    rewrite !nth_firstn by lia. auto.
Qed.

(** *** getvec *)
Lemma zero_fill (vec : list F) :
  for_ 0 (length vec) (fun i w => wr w i f0) vec = Ok (repeat f0 (length vec)).
Proof.
  rewrite fill_loop0 by lia. rewrite skipn_all, app_nil_r, Nat.sub_0_r. reflexivity.
Qed.

(** general scatter: entry k, if selected, writes its value to slot [key k] *)
Lemma scatter (c : coo F) n (sel : triple -> bool) (key : triple -> nat) (body : nat -> list F -> res (list F))
   (G : nat -> nat * nat) :
  coo_ok c ->
  (forall t, In t (coo_entries c) -> sel t = true -> key t < n) ->
  (forall r q v j, j < n -> ((sel (r,q,v) = true /\ key (r,q,v) = j) <-> (r, q) = G j)) ->
  (forall k w, k < c_nnz c -> length w = n ->
     body k w = let t := nth k (coo_entries c) D in
                if sel t then Ok (upd w (key t) (snd t)) else Ok w) ->
  exists w, for_ 0 (c_nnz c) body (repeat f0 n) = Ok w /\ length w = n /\
    forall j, j < n -> nth j w f0 = last_wins (coo_entries c) (fst (G j)) (snd (G j)).
Proof.
  intros W HK HG HB.
  destruct (@for0_inv _ (fun k (w : list F) => length w = n /\
     forall j, j < n -> nth j w f0 = last_wins (firstn k (coo_entries c)) (fst (G j)) (snd (G j)))
     (c_nnz c) body (repeat f0 n)) as (w & E & HL & HN).
  - split; [now rewrite repeat_length|]. intros j Hj. now rewrite nth_repeat.
  - intros k w Hk [HL HN]. rewrite HB by auto. cbv zeta.
    assert (Hlen : k < length (coo_entries c)) by (rewrite coo_entries_length; auto).
    assert (HIn : In (nth k (coo_entries c) D) (coo_entries c)) by (apply nth_In; auto).
    assert (Hstep : forall i j, last_wins (firstn (S k) (coo_entries c)) i j =
        let '(r, q, v) := nth k (coo_entries c) D in
        if (r =? i) && (q =? j) then v else last_wins (firstn k (coo_entries c)) i j)
      by (intros; now apply last_wins_firstn_S).
    destruct (nth k (coo_entries c) D) as [[r q] v] eqn:Et. cbn [snd] in *.
    destruct (sel (r, q, v)) eqn:Es; eexists; (split; [reflexivity|]).
    + split; [now rewrite upd_length|]. intros j Hj. rewrite Hstep.
      destruct (Nat.eq_dec (key (r, q, v)) j) as [Ek|Ek].
      * rewrite Ek, nth_upd_same by lia.
        assert (X : (r, q) = G j) by (apply (HG r q v); auto).
        rewrite <- X. cbn [fst snd]. rewrite !Nat.eqb_refl. reflexivity.
      * rewrite nth_upd_other by auto. rewrite HN by auto.
        assert (X : (r, q) <> G j) by (intros X; apply (HG r q v) in X; tauto).
        destruct (Nat.eqb_spec r (fst (G j))); [destruct (Nat.eqb_spec q (snd (G j)))|]; auto.
        exfalso. apply X. destruct (G j); cbn in *; congruence.
    + split; auto. intros j Hj. rewrite Hstep, HN by auto.
      assert (X : (r, q) <> G j) by (intros X; apply (HG r q v) in X; auto; destruct X; congruence).
      destruct (Nat.eqb_spec r (fst (G j))); [destruct (Nat.eqb_spec q (snd (G j)))|]; auto.
      exfalso. apply X. destruct (G j); cbn in *; congruence.
  - exists w. split; auto. split; auto. intros j Hj. rewrite HN by auto.
    now rewrite <- (coo_entries_length W), firstn_all.
Qed.

Lemma entries_rd (c : coo F) k :
  coo_ok c -> k < c_nnz c ->
  exists r q v, nth k (coo_entries c) D = (r, q, v) /\
    rd (c_ri c) k = Ok r /\ rd (c_ci c) k = Ok q /\ rd (c_val c) k = Ok v.
Proof.
  intros W Hk. rewrite coo_entries_nth by auto. destruct W as (H1 & H2 & H3 & H4 & H5).
  do 3 eexists. split; [reflexivity|].
  rewrite (@rd_lt _ (c_ri c) k 0), (@rd_lt _ (c_ci c) k 0), (@rd_lt _ (c_val c) k f0) by lia. auto.
Qed.

Lemma in_range_entry (c : coo F) t :
  in_range (c_row c) (c_col c) (coo_entries c) -> In t (coo_entries c) ->
  fst (fst t) < c_row c /\ snd (fst t) < c_col c.
Proof. intros H Hin. unfold in_range in H. rewrite Forall_forall in H. apply H; auto. Qed.

Theorem coo_getrow_ok (c : coo F) r0 vec :
  coo_ok c -> in_range (c_row c) (c_col c) (coo_entries c) -> length vec = c_col c ->
  exists w, coo_getrow c r0 vec = Ok w /\ length w = c_col c /\
    forall j, j < c_col c -> nth j w f0 = last_wins (coo_entries c) r0 j.
Proof.
  intros W HR HV. unfold coo_getrow. rewrite HV, Nat.eqb_refl. cbn [assert_ bind].
  rewrite <- HV, zero_fill, HV. cbn [bind].
  apply (@scatter c (c_col c) (fun t => fst (fst t) =? r0) (fun t => snd (fst t)) _ (fun j => (r0, j))); auto.
  - intros t Hin _. now apply (@in_range_entry c _ HR).
  - intros r q v j Hj. cbn. rewrite Nat.eqb_eq. split; [intros [-> ->]|intros X; inversion X]; auto.
  - intros k w Hk HL. destruct (entries_rd W Hk) as (r & q & v & Et & E1 & E2 & E3).
    assert (HIn : In (r, q, v) (coo_entries c)).
    { rewrite <- Et. apply nth_In. rewrite coo_entries_length; auto. }
    rewrite Et, E1. cbn [bind fst snd]. destruct (r =? r0); auto.
    rewrite E2, E3. cbn [bind]. apply wr_lt. apply (@in_range_entry c _ HR) in HIn. cbn in HIn. lia.
Qed.

Theorem coo_getcol_ok (c : coo F) c0 vec :
  coo_ok c -> in_range (c_row c) (c_col c) (coo_entries c) -> length vec = c_row c ->
  exists w, coo_getcol c c0 vec = Ok w /\ length w = c_row c /\
    forall i, i < c_row c -> nth i w f0 = last_wins (coo_entries c) i c0.
Proof.
  intros W HR HV. unfold coo_getcol. rewrite HV, Nat.eqb_refl. cbn [assert_ bind].
  rewrite <- HV, zero_fill, HV. cbn [bind].
  apply (@scatter c (c_row c) (fun t => snd (fst t) =? c0) (fun t => fst (fst t)) _ (fun i => (i, c0))); auto.
  - intros t Hin _. now apply (@in_range_entry c _ HR).
  - intros r q v j Hj. cbn. rewrite Nat.eqb_eq. split; [intros [-> ->]|intros X; inversion X]; auto.
  - intros k w Hk HL. destruct (entries_rd W Hk) as (r & q & v & Et & E1 & E2 & E3).
    assert (HIn : In (r, q, v) (coo_entries c)).
    { rewrite <- Et. apply nth_In. rewrite coo_entries_length; auto. }
    rewrite Et, E2. cbn [bind fst snd]. destruct (q =? c0); auto.
    rewrite E1, E3. cbn [bind]. apply wr_lt. apply (@in_range_entry c _ HR) in HIn. cbn in HIn. lia.
Qed.

Theorem coo_diag_ok (c : coo F) vec :
  coo_ok c -> in_range (c_row c) (c_col c) (coo_entries c) ->
  length vec = Nat.min (c_row c) (c_col c) ->
  exists w, coo_diag c vec = Ok w /\ length w = Nat.min (c_row c) (c_col c) /\
    forall i, i < Nat.min (c_row c) (c_col c) -> nth i w f0 = last_wins (coo_entries c) i i.
Proof.
  intros W HR HV. unfold coo_diag.
  assert (Hs : (if c_col c <? c_row c then c_col c else c_row c) = length vec).
  { destruct (Nat.ltb_spec (c_col c) (c_row c)); lia. }
  rewrite Hs, Nat.eqb_refl. cbn [assert_ bind].
  rewrite zero_fill, HV. cbn [bind].
  apply (@scatter c (Nat.min (c_row c) (c_col c)) (fun t => fst (fst t) =? snd (fst t))
           (fun t => fst (fst t)) _ (fun i => (i, i))); auto.
  - intros t Hin Hs'. apply Nat.eqb_eq in Hs'. destruct (@in_range_entry c _ HR Hin). lia.
  - intros r q v j Hj. cbn. rewrite Nat.eqb_eq. split; [intros [-> ->]|intros X; inversion X]; auto.
  - intros k w Hk HL. destruct (entries_rd W Hk) as (r & q & v & Et & E1 & E2 & E3).
    assert (HIn : In (r, q, v) (coo_entries c)).
    { rewrite <- Et. apply nth_In. rewrite coo_entries_length; auto. }
    rewrite Et, E1, E2. cbn [bind fst snd]. destruct (Nat.eqb_spec r q); auto.
    rewrite E3. cbn [bind]. apply wr_lt. apply (@in_range_entry c _ HR) in HIn. cbn in HIn. lia.
Qed.

Theorem coo_getvec_badsize (c : coo F) r0 vec :
  (length vec <> c_col c -> coo_getrow c r0 vec = Abort) /\
  (length vec <> c_row c -> coo_getcol c r0 vec = Abort) /\
  (length vec <> Nat.min (c_row c) (c_col c) -> coo_diag c vec = Abort).
Proof.
  unfold coo_getrow, coo_getcol, coo_diag. split; [|split]; intros H.
  - destruct (Nat.eqb_spec (c_col c) (length vec)); [lia|reflexivity].
  - destruct (Nat.eqb_spec (c_row c) (length vec)); [lia|reflexivity].
  - destruct (Nat.ltb_spec (c_col c) (c_row c));
    match goal with |- context [?a =? ?b] => destruct (Nat.eqb_spec a b) end; try lia; reflexivity.
Qed.

(** *** Dense objects *)
Lemma dense_resize_ok (d : dense F) N :
  length (d_val d) = d_alloc d -> d_first d + d_nnz d <= d_alloc d -> d_own d = true ->
  exists d', dense_resize d N f0 = Ok d' /\ length (d_val d') = d_alloc d' /\
    d_first d' + d_nnz d' <= d_alloc d' /\ d_own d' = true /\ d_nnz d' = N /\
    d_row d' = d_row d /\ d_col d' = d_col d /\ (d_first d = 0 -> d_first d' = 0).
Proof.
  intros H1 H2 H3. unfold dense_resize.
  destruct (Nat.ltb_spec (d_first d + N) (d_alloc d)) as [Hs|Hs].
  - destruct (le_lt_dec (d_nnz d) N) as [Hle|Hgt].
    + destruct (@fill_loop F f0 f0 (d_nnz d) N (d_first d) (d_val d)) as (t & E & HL & _); try lia.
      rewrite E. cbn [bind]. eexists; split; [reflexivity|]. dsimpl. repeat split; auto; lia.
    + rewrite for_empty by lia. cbn [bind]. eexists; split; [reflexivity|]. dsimpl.
      repeat split; auto; lia.
  - rewrite H3.
    rewrite (@copy_loop0 F f0) by (rewrite ?repeat_length; lia). cbn [bind].
    rewrite fill_loop0 by (rewrite ?app_length, ?firstn_length, ?skipn_length, ?repeat_length; lia).
    cbn [bind]. eexists; split; [reflexivity|]. dsimpl.
    rewrite !app_length, ?firstn_length, ?skipn_length, ?repeat_length, ?app_length, ?firstn_length,
      ?skipn_length, ?repeat_length.
    repeat split; auto; lia.
Qed.

Lemma dense_new_ok M N :
  dense_new (F:=F) M N = Ok (mkDense M N (repeat f0 (M * N)) 0 (M * N) (M * N) true).
Proof.
  unfold dense_new, dense_resize, dense_empty. dsimpl. cbn [Nat.add Nat.ltb Nat.leb Nat.min].
  rewrite (@for_empty _ 0 0) by lia. cbn [bind].
  rewrite fill_loop0 by (rewrite ?repeat_length; lia). cbn [bind].
  rewrite firstn_O, Nat.sub_0_r, skipn_all2 by (rewrite repeat_length; lia).
  rewrite app_nil_r. reflexivity.
Qed.

Lemma rc_lt M N i j : i < M -> j < N -> N * i + j < M * N.
Proof. intros. nia. Qed.

Lemma rc_inj N i j i' j' : j < N -> j' < N -> N * i + j = N * i' + j' -> i = i' /\ j = j'.
Proof.
  intros Hj Hj' H.
  assert (i = i') by (destruct (lt_eq_lt_dec i i') as [[?|?]|?]; auto; nia).
  subst. split; auto. lia.
Qed.

Lemma dense_at_ok (d : dense F) i j :
  dense_ok d -> i < d_row d -> j < d_col d -> dense_at d i j = Ok (dense_fn d i j).
Proof.
  intros (H1 & H2 & H3) Hi Hj. unfold dense_at, dense_at1, dense_fn.
  pose proof (rc_lt Hi Hj) as HB.
  rewrite (proj2 (Nat.ltb_lt _ _) Hi), (proj2 (Nat.ltb_lt _ _) Hj). cbn [assert_ bind].
  destruct (Nat.ltb_spec (d_col d * i + j) (d_nnz d)); [|lia].
  destruct (Nat.ltb_spec (d_first d + (d_col d * i + j)) (d_alloc d)); [|lia].
  cbn [assert_ bind]. apply rd_lt. lia.
Qed.

Lemma dense_at_oob (d : dense F) i j :
  ~ (i < d_row d /\ j < d_col d) -> dense_at d i j = Abort.
Proof.
  intros H. unfold dense_at.
  destruct (Nat.ltb_spec i (d_row d)); cbn [assert_ bind]; auto.
  destruct (Nat.ltb_spec j (d_col d)); cbn [assert_ bind]; auto. lia.
Qed.

Lemma dense_insert_oob (d : dense F) i j v :
  ~ (i < d_row d /\ j < d_col d) -> dense_insert d i j v = Abort.
Proof.
  intros H. unfold dense_insert.
  destruct (Nat.ltb_spec i (d_row d)); cbn [assert_ bind]; auto.
  destruct (Nat.ltb_spec j (d_col d)); cbn [assert_ bind]; auto. lia.
Qed.

Lemma dense_insert_ok (d : dense F) i j v :
  dense_ok d -> i < d_row d -> j < d_col d ->
  exists d', dense_insert d i j v = Ok d' /\ dense_ok d' /\
    d_row d' = d_row d /\ d_col d' = d_col d /\ d_first d' = d_first d /\ d_own d' = d_own d /\
    (forall k, k <> d_first d + (d_col d * i + j) -> nth k (d_val d') f0 = nth k (d_val d) f0) /\
    forall i' j', i' < d_row d -> j' < d_col d ->
      dense_fn d' i' j' = if (i' =? i) && (j' =? j) then v else dense_fn d i' j'.
Proof.
  intros (H1 & H2 & H3) Hi Hj. unfold dense_insert, dense_insert1.
  pose proof (rc_lt Hi Hj) as HB.
  rewrite (proj2 (Nat.ltb_lt _ _) Hi), (proj2 (Nat.ltb_lt _ _) Hj). cbn [assert_ bind].
  destruct (Nat.ltb_spec (d_col d * i + j) (d_nnz d)); [|lia].
  destruct (Nat.ltb_spec (d_first d + (d_col d * i + j)) (d_alloc d)); [|lia].
  cbn [assert_ bind]. rewrite wr_lt by lia. cbn [bind].
  eexists; split; [reflexivity|]. dsimpl. split; [|split; [|split; [|split; [|split; [|split]]]]]; auto.
  - unfold dense_ok; dsimpl. rewrite upd_length. auto.
  - intros k Hk. apply nth_upd_other. auto.
  - intros i' j' Hi' Hj'. unfold dense_fn; dsimpl.
    destruct (Nat.eqb_spec i' i) as [->|Hne]; [destruct (Nat.eqb_spec j' j) as [->|Hne]|]; cbn [andb].
    + rewrite nth_upd_same by lia. auto.
    + rewrite nth_upd_other by lia. auto.
    + rewrite nth_upd_other; auto. intros E.
      assert (EE : d_col d * i + j = d_col d * i' + j') by lia.
      apply rc_inj in EE; auto. lia.
Qed.

Theorem dense_convert_coo_ok (d : dense F) (c : coo F) :
  length (d_val d) = d_alloc d -> d_first d + d_nnz d <= d_alloc d -> d_first d = 0 ->
  coo_ok c -> in_range (c_row c) (c_col c) (coo_entries c) ->
  exists d', dense_convert_coo d c = Ok d' /\ dense_ok d' /\ dense_plain d' /\
    d_row d' = c_row c /\ d_col d' = c_col c /\
    forall i j, i < c_row c -> j < c_col c -> dense_fn d' i j = last_wins (coo_entries c) i j.
Proof.
  intros H1 H2 H3 W HR. unfold dense_convert_coo.
  destruct (@dense_resize_ok (d_set_own (d_set_rc d (c_row c) (c_col c))) (c_row c * c_col c))
    as (d2 & E & A1 & A2 & A3 & A4 & A5 & A6 & A7); dsimpl; auto.
  rewrite E. cbn [bind].
  cbn [d_set_own d_set_rc d_row d_col d_first] in A5, A6, A7.
  rewrite fill_loop0 by lia. cbn [bind].
  set (v0 := firstn 0 (d_val d2) ++ repeat f0 (d_nnz d2 - 0) ++ skipn (d_nnz d2) (d_val d2)).
  assert (HL0 : length v0 = d_alloc d2).
  { unfold v0. rewrite firstn_O, !app_length, repeat_length, skipn_length. cbn [length]. lia. }
  assert (Hz : forall k, k < d_nnz d2 -> nth k v0 f0 = f0).
  { intros k Hk. unfold v0. rewrite firstn_O. cbn [app].
    rewrite app_nth1 by (rewrite repeat_length; lia). apply nth_repeat. lia. }
  clearbody v0.
  destruct (@for0_inv _ (fun k (x : dense F) => dense_ok x /\ d_row x = c_row c /\ d_col x = c_col c /\
      d_first x = 0 /\ d_own x = true /\
      forall i j, i < c_row c -> j < c_col c ->
        dense_fn x i j = last_wins (firstn k (coo_entries c)) i j) (c_nnz c)
    (fun k d => r <- rd (c_ri c) k ;; q <- rd (c_ci c) k ;; x <- rd (c_val c) k ;; dense_insert d r q x)
    (d_set_val d2 v0)) as (d3 & E3 & B1 & B2 & B3 & B4 & B5 & B6).
  - dsimpl. split; [|split; [|split; [|split; [|split]]]]; auto.
    + unfold dense_ok; dsimpl. rewrite A4, A5, A6. split; auto. split; auto. rewrite <- A4. lia.
    + intros i j Hi Hj. unfold dense_fn; dsimpl. rewrite A7 by auto. cbn [Nat.add firstn last_wins].
      apply Hz. rewrite A4, A6. now apply rc_lt.
  - intros k x Hk (B1 & B2 & B3 & B4 & B5 & B6).
    destruct (entries_rd W Hk) as (r & q & v & Et & E1 & E2 & E3).
    assert (HIn : In (r, q, v) (coo_entries c)).
    { rewrite <- Et. apply nth_In. rewrite coo_entries_length; auto. }
    apply (@in_range_entry c _ HR) in HIn. cbn in HIn.
    rewrite E1, E2, E3. cbn [bind].
    destruct (@dense_insert_ok x r q v B1) as (x' & EI & C1 & C2 & C3 & C4 & C5 & C6 & C7); try lia.
    exists x'. split; auto. split; auto. split; [congruence|]. split; [congruence|].
    split; [congruence|]. split; [congruence|].
    intros i j Hi Hj. rewrite C7 by lia. rewrite last_wins_firstn_S by (rewrite coo_entries_length; auto).
    rewrite Et, B6 by auto.
    rewrite (Nat.eqb_sym i r), (Nat.eqb_sym j q). reflexivity.
  - exists d3. split; auto. split; auto. split; [split; auto|]. split; auto. split; auto.
    intros i j Hi Hj. rewrite B6 by auto. now rewrite <- (coo_entries_length W), firstn_all.
Qed.

(** the non-zero elements of row i, columns < n, in order *)
Definition row_nz (d : dense F) (i n : nat) : list triple :=
  filter (fun t => negb (feqb (snd t) f0)) (map (fun j => (i, j, dense_fn d i j)) (seq 0 n)).
(** all non-zero elements in row-major order *)
Definition all_nz (d : dense F) (m n : nat) : list triple :=
  flat_map (fun i => row_nz d i n) (seq 0 m).

Lemma row_nz_S d i n :
  row_nz d i (S n) = row_nz d i n ++ (if feqb (dense_fn d i n) f0 then [] else [(i, n, dense_fn d i n)]).
Proof.
  unfold row_nz. rewrite seq_S, map_app, filter_app. cbn. destruct (feqb (dense_fn d i n) f0); reflexivity.
Qed.

Lemma all_nz_S d m n : all_nz d (S m) n = all_nz d m n ++ row_nz d m n.
Proof. unfold all_nz. rewrite seq_S, flat_map_app. cbn. now rewrite app_nil_r. Qed.

Lemma filter_len {A} (f : A -> bool) l : length (filter f l) <= length l.
Proof. induction l as [|x l IH]; cbn; auto. destruct (f x); cbn; lia. Qed.

Lemma row_nz_len d i n : length (row_nz d i n) <= n.
Proof.
  unfold row_nz. etransitivity; [apply filter_len|]. now rewrite map_length, seq_length.
Qed.

Lemma all_nz_len d m n : length (all_nz d m n) <= m * n.
Proof.
  induction m as [|m IH]; auto. rewrite all_nz_S, app_length.
  pose proof (row_nz_len d m n). cbn. lia.
Qed.

Definition conv_inv (N : nat) (ts : list triple) (st : list nat * list nat * list F * nat) : Prop :=
  let '(ri, ci, v, nz) := st in
  ri = map (fun t => fst (fst t)) ts /\ ci = map (fun t => snd (fst t)) ts /\
  firstn nz v = map snd ts /\ nz = length ts /\ length v = N.

Theorem coo_convert_dense_ok (c : coo F) (d : dense F) :
  coo_ok c -> dense_ok d ->
  exists c', coo_convert_dense c d = Ok c' /\ coo_ok c' /\
    c_row c' = d_row d /\ c_col c' = d_col d /\
    coo_entries c' = all_nz d (d_row d) (d_col d).
Proof.
  intros W WD. unfold coo_convert_dense.
  set (M := d_row d). set (N := d_col d).
  destruct (@coo_resize_ok _ _ (mkCoo M N (c_ri c) (c_ci c) (c_val c) (c_nnz c) (c_alloc c) true)
      (M * N) f0) as (c2 & E & W2 & Hr & Hc & Hn & Ha & _).
  { destruct W as (H1 & H2 & H3 & H4 & H5). unfold coo_ok; csimpl. auto. }
  rewrite E. cbn [bind]. cbn [c_row c_col] in Hr, Hc.
  assert (HLv : length (c_val c2) = M * N) by (rewrite <- Ha; apply W2).
  match goal with |- context [for_ 0 M ?b ?s] =>
    destruct (@for0_inv _ (fun i st => conv_inv (M * N) (all_nz d i N) st) M b s)
      as (st & EL & HI) end.
  - cbn. auto.
  - intros i st Hi HI.
    match goal with |- exists s', for_ 0 N ?b st = _ /\ _ =>
      destruct (@for0_inv _ (fun j st => conv_inv (M * N) (all_nz d i N ++ row_nz d i j) st) N b st)
      as (st' & EL & HI') end.
    + cbn. now rewrite app_nil_r.
    + intros j [[[ri ci] v] nz] Hj (I1 & I2 & I3 & I4 & I5).
      rewrite dense_at_ok by auto. cbn [bind].
      rewrite row_nz_S.
      destruct (feqb (dense_fn d i j) f0); cbn [negb].
      * rewrite app_nil_r. eexists; split; [reflexivity|]. cbn. auto.
      * assert (Hnz : nz < M * N).
        { rewrite I4, app_length. pose proof (all_nz_len d i N). pose proof (row_nz_len d i j). nia. }
        rewrite wr_lt by lia. cbn [bind].
        eexists; split; [reflexivity|]. unfold conv_inv.
        rewrite app_assoc. set (T := all_nz d i N ++ row_nz d i j) in *. clearbody T.
        rewrite !map_app, app_length, <- I1, <- I2, <- I3, <- I4. cbn [map fst snd length].
        split; auto. split; auto. split; [|split; [lia|now rewrite upd_length]].
        replace (nz + 1) with (S nz) by lia.
        rewrite (@firstn_S_nth _ _ _ f0) by (rewrite upd_length; lia).
        rewrite firstn_upd_ge by lia. rewrite nth_upd_same by lia. reflexivity.
    + exists st'. split; auto. rewrite all_nz_S. exact HI'.
  - rewrite EL. cbn [bind]. destruct st as [[[ri ci] v] nz]. destruct HI as (I1 & I2 & I3 & I4 & I5).
    assert (Hnz : nz <= M * N) by (rewrite I4; apply all_nz_len).
    unfold coo_resize. csimpl. rewrite Hn.
    replace (Nat.min (M * N) nz) with nz by lia.
    rewrite (@copy_loop0 F f0) by (rewrite ?repeat_length; lia). cbn [bind].
    rewrite for_empty by lia. cbn [bind].
    rewrite skipn_all2 by (rewrite repeat_length; lia). rewrite app_nil_r.
    eexists; split; [reflexivity|]. csimpl.
    assert (Hv : forall (l : list nat), length l = nz -> vresize 0 l nz = l).
    { intros l <-. unfold vresize. rewrite firstn_all, Nat.sub_diag. cbn. apply app_nil_r. }
    rewrite !Hv by (subst ri ci; rewrite map_length; auto).
    split; [|split; [|split]]; auto.
    + unfold coo_ok; csimpl. rewrite firstn_length. subst ri ci. rewrite !map_length. repeat split; auto; lia.
    + rewrite I3, I1, I2, entries_unzip, I4. now rewrite firstn_all.
Qed.

(** all_nz read as a matrix gives back every element up to [feqb _ 0] *)
Lemma last_wins_app_right (a b : list triple) i j :
  (forall v, ~ In (i, j, v) b) -> last_wins (a ++ b) i j = last_wins a i j.
Proof.
  induction b as [|[[r c] v] b IH] using rev_ind; intros H.
  - now rewrite app_nil_r.
  - rewrite app_assoc, last_wins_snoc.
    destruct (Nat.eqb_spec r i) as [->|]; [destruct (Nat.eqb_spec c j) as [->|]|]; cbn [andb].
    + exfalso. apply (H v). apply in_or_app. cbn. auto.
    + apply IH. intros v' Hv. apply (H v'). apply in_or_app. auto.
    + apply IH. intros v' Hv. apply (H v'). apply in_or_app. auto.
Qed.

Lemma row_nz_in d i n r c v :
  In (r, c, v) (row_nz d i n) <-> r = i /\ c < n /\ v = dense_fn d i c /\ feqb v f0 = false.
Proof.
  unfold row_nz. rewrite filter_In, in_map_iff. cbn. split.
  - intros [(j & E & Hj) Hv]. inversion E; subst. apply in_seq in Hj. repeat split; auto; try lia.
    now destruct (feqb _ _).
  - intros (-> & Hc & -> & Hv). split; [|now rewrite Hv]. exists c. split; auto. apply in_seq. lia.
Qed.

Lemma all_nz_in d m n r c v :
  In (r, c, v) (all_nz d m n) <-> r < m /\ c < n /\ v = dense_fn d r c /\ feqb v f0 = false.
Proof.
  unfold all_nz. rewrite in_flat_map. split.
  - intros (i & Hi & H). apply in_seq in Hi. apply row_nz_in in H. destruct H as (-> & ?). repeat split; tauto || lia.
  - intros (Hr & H). exists r. split; [apply in_seq; lia|]. apply row_nz_in. auto.
Qed.

Lemma all_nz_last_wins d m n i j :
  i < m -> j < n ->
  last_wins (all_nz d m n) i j = if feqb (dense_fn d i j) f0 then f0 else dense_fn d i j.
Proof.
  intros Hi Hj. destruct (feqb (dense_fn d i j) f0) eqn:E.
  - apply last_wins_in. intros [v Hv]. apply all_nz_in in Hv. destruct Hv as (_ & _ & -> & Hv). congruence.
  - assert (In (i, j, last_wins (all_nz d m n) i j) (all_nz d m n)) as H.
    { apply last_wins_in. exists (dense_fn d i j). apply all_nz_in. auto. }
    apply all_nz_in in H. tauto.
Qed.

Lemma all_nz_in_range d m n : in_range m n (all_nz d m n).
Proof.
  unfold in_range. apply Forall_forall. intros [[r c] v] H. apply all_nz_in in H. cbn. tauto.
Qed.

(** *** comparison *)
Lemma vequalF_ok n (a y : list F) :
  n <= length a -> n <= length y ->
  exists b, vequalF n a y = Ok b /\ (b = true <-> forall i, i < n -> feqb (nth i y f0) (nth i a f0) = true).
Proof.
  intros Ha Hy. unfold vequalF.
  match goal with |- context [for_ 0 n ?b ?s] =>
    destruct (@for0_inv _ (fun k ans => ans = true <-> forall i, i < k -> feqb (nth i y f0) (nth i a f0) = true)
      n b s) as (r & E & H) end.
  - split; auto. intros _ i Hi. lia.
  - intros i ans Hi HI. rewrite (@rd_lt _ y i f0), (@rd_lt _ a i f0) by lia. cbn [bind].
    eexists; split; [reflexivity|].
    destruct (feqb (nth i y f0) (nth i a f0)) eqn:E; cbn [negb].
    + rewrite HI. split; intros H k Hk; [|apply H; lia].
      destruct (Nat.eq_dec k i) as [->|]; auto. apply H. lia.
    + split; [discriminate|]. intros H. rewrite <- E. apply H. lia.
  - exists r. auto.
Qed.

Lemma vequalI_ok n (a y : list nat) :
  n <= length a -> n <= length y ->
  exists b, vequalI n a y = Ok b /\ (b = true <-> forall i, i < n -> nth i y 0 = nth i a 0).
Proof.
  intros Ha Hy. unfold vequalI.
  match goal with |- context [for_ 0 n ?b ?s] =>
    destruct (@for0_inv _ (fun k ans => ans = true <-> forall i, i < k -> nth i y 0 = nth i a 0)
      n b s) as (r & E & H) end.
  - split; auto. intros _ i Hi. lia.
  - intros i ans Hi HI. rewrite (@rd_lt _ y i 0), (@rd_lt _ a i 0) by lia. cbn [bind].
    eexists; split; [reflexivity|].
    destruct (Nat.eqb_spec (nth i y 0) (nth i a 0)) as [E|E]; cbn [negb].
    + rewrite HI. split; intros H k Hk; [|apply H; lia].
      destruct (Nat.eq_dec k i) as [->|]; auto. apply H. lia.
    + split; [discriminate|]. intros H. exfalso. apply E. apply H. lia.
  - exists r. auto.
Qed.

(** the entry lists agree (positions equal, values equal as floats) *)
Definition entries_eq (a b : list triple) : Prop :=
  Forall2 (fun x y => fst x = fst y /\ feqb (snd y) (snd x) = true) a b.

Lemma Forall2_nth {A B} (R : A -> B -> Prop) l k d1 d2 :
  Forall2 R l k <-> length l = length k /\ forall i, i < length l -> R (nth i l d1) (nth i k d2).
Proof.
  split.
  - induction 1 as [|x y l k H H2 [IH1 IH2]]; cbn; [split; auto; lia|]. split; [lia|].
    intros [|i] Hi; auto. apply IH2. lia.
  - revert k; induction l as [|x l IH]; intros [|y k] [HL H]; cbn in *; try lia; constructor.
    + apply (H 0). lia.
    + apply IH. split; [lia|]. intros i Hi. apply (H (S i)). lia.
Qed.

Theorem coo_equal_ok (a b : coo F) :
  coo_ok a -> coo_ok b -> c_nnz a = c_nnz b ->
  exists r, coo_equal a b = Ok r /\
    (r = true <-> c_row a = c_row b /\ c_col a = c_col b /\
                  entries_eq (coo_entries a) (coo_entries b)).
Proof.
  intros WA WB HN. unfold coo_equal.
  destruct (Nat.eqb_spec (c_row a) (c_row b)) as [Er|Er]; cbn [negb];
    [|eexists; split; [reflexivity|]; split; [discriminate|tauto]].
  destruct (Nat.eqb_spec (c_col a) (c_col b)) as [Ec|Ec]; cbn [negb];
    [|eexists; split; [reflexivity|]; split; [discriminate|tauto]].
  pose proof WA as (A1 & A2 & A3 & A4 & A5). pose proof WB as (B1 & B2 & B3 & B4 & B5).
  destruct (@vequalF_ok (c_nnz a) (c_val a) (c_val b)) as (e1 & -> & H1); try lia.
  destruct (@vequalI_ok (c_nnz a) (c_ci a) (c_ci b)) as (e2 & -> & H2); try lia.
  destruct (@vequalI_ok (c_nnz a) (c_ri a) (c_ri b)) as (e3 & -> & H3); try lia.
  exists (e1 && e2 && e3). split.
  { destruct e1, e2, e3; reflexivity. }
  rewrite !andb_true_iff, H1, H2, H3.
  unfold entries_eq. rewrite (@Forall2_nth _ _ _ _ _ D D), !coo_entries_length by auto.
  split.
  - intros [[G1 G2] G3]. split; auto. split; auto. split; auto. intros i Hi.
    rewrite !coo_entries_nth by (auto; lia). cbn. rewrite G1, G2, G3 by auto. auto.
  - intros (_ & _ & _ & G).
    assert (G' : forall i, i < c_nnz a -> nth i (c_ri a) 0 = nth i (c_ri b) 0 /\
        nth i (c_ci a) 0 = nth i (c_ci b) 0 /\ feqb (nth i (c_val b) f0) (nth i (c_val a) f0) = true).
    { intros i Hi. specialize (G i Hi). rewrite !coo_entries_nth in G by (auto; lia).
      cbn in G. destruct G as [G1 G2]. inversion G1. auto. }
    repeat split; intros i Hi; destruct (G' i Hi) as (? & ? & ?); auto.
Qed.

(** *** copies *)
Theorem coo_copy_ok (c : coo F) :
  coo_ok c ->
  exists c', coo_copy c = Ok c' /\ coo_ok c' /\ c_row c' = c_row c /\ c_col c' = c_col c /\
    coo_entries c' = coo_entries c.
Proof.
  intros W. pose proof W as (A1 & A2 & A3 & A4 & A5). unfold coo_copy, coo_of_arrays, coo_resize. csimpl.
  rewrite Nat.min_0_l, (@for_empty _ 0 0) by lia. cbn [bind].
  rewrite fill_loop0 by (rewrite ?repeat_length; lia). cbn [bind]. csimpl.
  rewrite (@copy_loop0 nat 0) by (rewrite ?vresize_length; lia). cbn [bind].
  rewrite (@copy_loop0 nat 0) by (rewrite ?vresize_length; lia). cbn [bind].
  rewrite (@copy_loop0 F f0) by (rewrite ?app_length, ?firstn_length, ?skipn_length, ?repeat_length; lia).
  cbn [bind].
  rewrite !skipn_all2 by (rewrite ?vresize_length, ?app_length, ?firstn_length, ?skipn_length, ?repeat_length; lia).
  rewrite !app_nil_r. eexists; split; [reflexivity|]. csimpl.
  match goal with |- coo_ok ?c' /\ _ => set (C := c') end.
  assert (WC : coo_ok C).
  { unfold coo_ok, C; csimpl. rewrite !firstn_length. repeat split; lia. }
  split; auto. split; auto. split; auto.
  apply entries_ext; auto. unfold C; csimpl. intros i Hi. rewrite !nth_firstn by auto. auto.
Qed.


(** *** final forms used by PropertiesCoo.v *)
Lemma coo_insert_at_full M N (ops : list triple) :
  in_range M N ops ->
  exists c, coo_inserts (coo_new M N) ops = Ok c /\ coo_ok c /\ c_row c = M /\ c_col c = N /\
    c_nnz c = length ops /\ coo_entries c = ops /\
    forall i j, i < M -> j < N -> coo_at c i j = Ok (last_wins ops i j).
Proof.
  intros HR.
  destruct (@coo_inserts_ok _ _ ops (coo_new M N)) as (c & E & W & Hr & Hc & HE).
  - apply coo_new_ok.
  - cbn. eapply Forall_impl; [|exact HR]. cbn. intros; lia.
  - cbn in HE. exists c. split; auto. split; auto. split; auto. split; auto.
    split; [|split; auto].
    + rewrite <- (coo_entries_length W), HE. reflexivity.
    + intros i j Hi Hj. rewrite coo_at_ok by (auto; cbn in *; lia). now rewrite HE.
Qed.

Lemma last_wins_meaning (pre post : list triple) i j v :
  (forall w, ~ In (i, j, w) post) ->
  last_wins (pre ++ (i, j, v) :: post) i j = v /\ last_wins post i j = f0.
Proof.
  intros H. split.
  - change ((i, j, v) :: post) with ([(i, j, v)] ++ post). rewrite app_assoc.
    rewrite last_wins_app_right by auto. rewrite last_wins_snoc, !Nat.eqb_refl. reflexivity.
  - apply last_wins_in. intros [w Hw]. eapply H; eauto.
Qed.

Lemma coo_insert_bounds_counterexample (v : F) :
  exists M N i j c c', ~ (i < M /\ j < N) /\ coo_insert (coo_new M N) i j v = Ok c /\
    coo_entries c = [(i, j, v)] /\ c = c' /\ coo_getcol c' 0 (repeat f0 M) = UB.
Proof.
  exists 1, 1, 1, 0. do 2 eexists. split; [lia|]. split; [vm_compute; reflexivity|].
  split; [vm_compute; reflexivity|]. split; [reflexivity|]. vm_compute. reflexivity.
Qed.

Lemma coo_insert_far (c : coo F) i j v :
  c_own c = true -> (c_row c < i \/ c_col c < j) ->
  coo_insert c i j v = Abort /\ coo_at c i j = Abort.
Proof.
  intros Ho H. unfold coo_insert, coo_at. rewrite Ho.
  destruct (Nat.leb_spec i (c_row c)); cbn [assert_ bind]; auto.
  destruct (Nat.leb_spec j (c_col c)); cbn [assert_ bind]; auto. lia.
Qed.

Lemma coo_sort_merge_counterexample (u v w : F) :
  exists c c', coo_inserts (coo_new 1 2) [(0,1,u); (0,1,v); (0,0,w)] = Ok c /\
    coo_sort c true = Ok c' /\ coo_at c 0 1 = Ok v /\ coo_at c' 0 1 = Ok u.
Proof.
  do 2 eexists. split; [vm_compute; reflexivity|]. split; [vm_compute; reflexivity|].
  split; vm_compute; reflexivity.
Qed.

Lemma coo_sort_merge_empty_counterexample M N :
  exists c', coo_sort (coo_new M N) true = Ok c' /\ c_nnz c' = 1 /\ coo_at (F:=F) c' 0 0 = UB.
Proof. eexists. split; [vm_compute; reflexivity|]. split; vm_compute; reflexivity. Qed.

Lemma coo_sort_merge_at (c : coo F) :
  coo_ok c -> 0 < c_nnz c ->
  exists c', coo_sort c true = Ok c' /\ coo_ok c' /\
    c_row c' = c_row c /\ c_col c' = c_col c /\ 0 < c_nnz c' <= c_nnz c /\
    StronglySorted pos_lt (map fst (coo_entries c')) /\
    incl (coo_entries c') (coo_entries c) /\
    (forall p v, In (p, v) (coo_entries c) -> exists v', In (p, v') (coo_entries c')) /\
    ((forall p v v', In (p, v) (coo_entries c) -> In (p, v') (coo_entries c) -> v = v') ->
     forall i j, i <= c_row c -> j <= c_col c -> coo_at c' i j = coo_at c i j).
Proof.
  intros W H. destruct (coo_sort_merge W H) as (c' & E & W' & Hr & Hc & Hn & S & I & P & L).
  exists c'. split; auto. split; auto. split; auto. split; auto. split; auto. split; auto.
  split; auto. split; auto. intros HC i j Hi Hj.
  rewrite !coo_at_ok by (auto; congruence). rewrite L; auto.
Qed.

Lemma coo_transpose_full (c : coo F) :
  coo_ok c ->
  coo_ok (coo_transpose c) /\
  c_row (coo_transpose c) = c_col c /\ c_col (coo_transpose c) = c_row c /\
  (forall i j, i <= c_row c -> j <= c_col c -> coo_at (coo_transpose c) j i = coo_at c i j) /\
  coo_transpose (coo_transpose c) = c.
Proof.
  intros W. split; [now apply coo_transpose_entries|]. split; auto. split; auto.
  split; [intros; now apply coo_transpose_at | apply coo_transpose_twice].
Qed.

Lemma coo_transpose_from_at (c B : coo F) :
  coo_ok c -> coo_ok B ->
  exists c', coo_transpose_from c B = Ok c' /\ coo_ok c' /\
    c_row c' = c_col B /\ c_col c' = c_row B /\ c_nnz c' = c_nnz B /\
    forall i j, i <= c_row B -> j <= c_col B -> coo_at c' j i = coo_at B i j.
Proof.
  intros W WB. destruct (coo_transpose_from_ok W WB) as (c' & E & W' & Hr & Hc & HE).
  exists c'. split; auto. split; auto. split; auto. split; auto. split.
  - rewrite <- (coo_entries_length W'), <- (coo_entries_length WB), HE, map_length. auto.
  - intros i j Hi Hj. rewrite !coo_at_ok by (auto; congruence). now rewrite HE, last_wins_swap.
Qed.

Lemma coo_getvec_full (c : coo F) (vec : list F) k :
  coo_ok c -> in_range (c_row c) (c_col c) (coo_entries c) ->
  (k < c_row c -> length vec = c_col c -> exists w, coo_getrow c k vec = Ok w /\
     length w = c_col c /\ forall j, j < c_col c -> coo_at c k j = Ok (nth j w f0)) /\
  (k < c_col c -> length vec = c_row c -> exists w, coo_getcol c k vec = Ok w /\
     length w = c_row c /\ forall i, i < c_row c -> coo_at c i k = Ok (nth i w f0)) /\
  (length vec = Nat.min (c_row c) (c_col c) -> exists w, coo_diag c vec = Ok w /\
     length w = length vec /\ forall i, i < length vec -> coo_at c i i = Ok (nth i w f0)) /\
  (length vec <> c_col c -> coo_getrow c k vec = Abort) /\
  (length vec <> c_row c -> coo_getcol c k vec = Abort) /\
  (length vec <> Nat.min (c_row c) (c_col c) -> coo_diag c vec = Abort).
Proof.
  intros W HR. split; [|split; [|split]].
  - intros Hk HL. destruct (coo_getrow_ok k vec W HR HL) as (w & E & HLw & HN).
    exists w. split; auto. split; auto. intros j Hj. rewrite coo_at_ok by (auto; lia). now rewrite HN.
  - intros Hk HL. destruct (coo_getcol_ok k vec W HR HL) as (w & E & HLw & HN).
    exists w. split; auto. split; auto. intros j Hj. rewrite coo_at_ok by (auto; lia). now rewrite HN.
  - intros HL. destruct (coo_diag_ok vec W HR HL) as (w & E & HLw & HN).
    exists w. split; auto. split; [congruence|]. intros j Hj. rewrite coo_at_ok by (auto; lia).
    rewrite HN; auto. lia.
  - apply coo_getvec_badsize.
Qed.

Lemma dense_of_coo_at (d : dense F) (c : coo F) :
  dense_ok d -> d_first d = 0 -> coo_ok c -> in_range (c_row c) (c_col c) (coo_entries c) ->
  exists d', dense_convert_coo d c = Ok d' /\ dense_ok d' /\ dense_plain d' /\
    d_row d' = c_row c /\ d_col d' = c_col c /\
    forall i j, i < c_row c -> j < c_col c -> dense_at d' i j = coo_at c i j.
Proof.
  intros (H1 & H2 & H3) H4 W HR.
  destruct (@dense_convert_coo_ok d c) as (d' & E & O & P & Hr & Hc & HN); auto.
  exists d'. split; auto. split; auto. split; auto. split; auto. split; auto.
  intros i j Hi Hj. rewrite dense_at_ok, coo_at_ok by (auto; lia). now rewrite HN.
Qed.

Lemma ss_app {A} (R : A -> A -> Prop) (l k : list A) :
  StronglySorted R l -> StronglySorted R k -> (forall x y, In x l -> In y k -> R x y) ->
  StronglySorted R (l ++ k).
Proof.
  induction 1 as [|x l HS IH HF]; intros HK H; cbn; auto.
  constructor.
  - apply IH; auto. intros; apply H; cbn; auto.
  - apply Forall_app. split; auto. apply Forall_forall. intros y Hy. apply H; cbn; auto.
Qed.

Lemma row_nz_sorted d i n : StronglySorted pos_lt (map fst (row_nz d i n)).
Proof.
  induction n as [|n IH]; [constructor|]. rewrite row_nz_S, map_app.
  apply ss_app; auto.
  - destruct (feqb _ _); repeat constructor.
  - intros x y Hx Hy. destruct (feqb _ _); [destruct Hy|]. destruct Hy as [<-|[]].
    apply in_map_iff in Hx. destruct Hx as ([[r c] v] & <- & Hx). apply row_nz_in in Hx.
    unfold pos_lt; cbn. lia.
Qed.

Lemma all_nz_sorted d m n : StronglySorted pos_lt (map fst (all_nz d m n)).
Proof.
  induction m as [|m IH]; [constructor|]. rewrite all_nz_S, map_app.
  apply ss_app; auto using row_nz_sorted.
  intros x y Hx Hy. apply in_map_iff in Hx, Hy.
  destruct Hx as ([[r c] v] & <- & Hx), Hy as ([[r' c'] v'] & <- & Hy).
  apply all_nz_in in Hx. apply row_nz_in in Hy. unfold pos_lt; cbn. lia.
Qed.

Lemma coo_of_dense_full (c : coo F) (d : dense F) :
  coo_ok c -> dense_ok d ->
  exists c', coo_convert_dense c d = Ok c' /\ coo_ok c' /\
    c_row c' = d_row d /\ c_col c' = d_col d /\
    in_range (c_row c') (c_col c') (coo_entries c') /\
    StronglySorted pos_lt (map fst (coo_entries c')) /\
    (forall i j v, In (i, j, v) (coo_entries c') <->
       i < d_row d /\ j < d_col d /\ dense_at d i j = Ok v /\ feqb v f0 = false) /\
    (forall i j, i < d_row d -> j < d_col d -> exists x, dense_at d i j = Ok x /\
       coo_at c' i j = Ok (if feqb x f0 then f0 else x)).
Proof.
  intros W WD. destruct (coo_convert_dense_ok W WD) as (c' & E & W' & Hr & Hc & HE).
  exists c'. split; auto. split; auto. split; auto. split; auto.
  rewrite HE, Hr, Hc. split; [apply all_nz_in_range|]. split; [apply all_nz_sorted|]. split.
  - intros i j v. rewrite all_nz_in. split.
    + intros (Hi & Hj & -> & Hv). rewrite dense_at_ok by auto. auto.
    + intros (Hi & Hj & Hv & Hz). rewrite dense_at_ok in Hv by auto. inversion Hv; subst. auto.
  - intros i j Hi Hj. exists (dense_fn d i j). split; [now apply dense_at_ok|].
    rewrite coo_at_ok by (auto; lia). rewrite HE, all_nz_last_wins; auto.
Qed.

Lemma dense_coo_dense (d d0 : dense F) (c : coo F) :
  dense_ok d -> dense_ok d0 -> d_first d0 = 0 -> coo_ok c ->
  exists c' d', coo_convert_dense c d = Ok c' /\ dense_convert_coo d0 c' = Ok d' /\
    d_row d' = d_row d /\ d_col d' = d_col d /\
    forall i j, i < d_row d -> j < d_col d -> exists x, dense_at d i j = Ok x /\
      dense_at d' i j = Ok (if feqb x f0 then f0 else x).
Proof.
  intros WD WD0 Hf W.
  destruct (coo_of_dense_full W WD) as (c' & E & W' & Hr & Hc & HR & _ & _ & HA).
  destruct (dense_of_coo_at WD0 Hf W' HR) as (d' & E' & WD' & _ & Hr' & Hc' & HA').
  exists c', d'. split; auto. split; auto. split; [congruence|]. split; [congruence|].
  intros i j Hi Hj. destruct (HA i j Hi Hj) as (x & Hx & Hax). exists x. split; auto.
  rewrite HA' by congruence. exact Hax.
Qed.

End CooMisc.

Lemma coo_transpose_alias_counterexample :
  exists c c', coo_inserts (coo_new 2 2) [(0,1,5%Z)] = Ok c /\ coo_transpose_self c = Ok c' /\
    coo_at c 0 1 = Ok 5%Z /\ coo_at c' 1 0 = Ok 0%Z /\ coo_at c' 1 1 = Ok 5%Z.
Proof.
  do 2 eexists. split; [vm_compute; reflexivity|]. split; [vm_compute; reflexivity|].
  repeat split; vm_compute; reflexivity.
Qed.

Lemma coo_equal_counterexample :
  exists a b, coo_inserts (coo_new 2 2) [(0,0,1%Z)] = Ok a /\
    coo_inserts (coo_new 2 2) [(0,0,1%Z); (1,1,5%Z)] = Ok b /\
    coo_equal a b = Ok true /\ coo_at a 1 1 <> coo_at b 1 1.
Proof.
  do 2 eexists. split; [vm_compute; reflexivity|]. split; [vm_compute; reflexivity|].
  split; [vm_compute; reflexivity|]. vm_compute. discriminate.
Qed.

Lemma coo_equal_oob_counterexample :
  exists a b, coo_inserts (coo_new 2 2) [(0,0,1%Z)] = Ok a /\ coo_ok a /\ coo_ok b /\
    b = coo_new 2 2 /\ coo_equal a b = UB.
Proof.
  eexists. exists (coo_new 2 2). split; [vm_compute; reflexivity|].
  split; [repeat split; cbn; lia|]. split; [repeat split; cbn; lia|].
  split; vm_compute; reflexivity.
Qed.
