(** * MpiProof7: blocking point-to-point transfers. *)
From Coq Require Import List Arith Bool Lia.
From Verif Require Import Base MpiMap MpiModel MpiProof MpiProof2 MpiProof3 MpiProof4 MpiProof5 MpiSpec MpiProof6.
Import ListNotations.
Set Implicit Arguments.

Section Transfer.
Variable V : Type.
Variable I : impl V.
Notation rst := (rst V).
Notation gst := (gst V).
Notation gstep := (gstep I).
Notation exec := (exec I).

Lemma leads_refl (s : gst) : leads I s s.
Proof. split; [exists []; constructor|tauto]. Qed.

Lemma leads_trans (s1 s2 s3 : gst) : leads I s1 s2 -> leads I s2 s3 -> leads I s1 s3.
Proof.
  intros [[t1 E1] O1] [[t2 E2] O2]. split; [exists (t1 ++ t2); eapply exec_app; eauto|].
  intro o. rewrite O1. apply O2.
Qed.

Lemma leads_reachable (s s' : gst) : reachable I s -> leads I s s' -> reachable I s'.
Proof. intros R [[t E] _]. eapply reachable_exec; eauto. Qed.

Lemma leads_fails (s s' : gst) : reachable I s -> leads I s s' -> fails I s' -> fails I s.
Proof.
  intros R [[t E] _] [F1 _]. destruct (F1 [] s' (exec_nil _ _)) as [t' E']. eapply fails_intro; [exact R|].
  eapply exec_app; eauto.
Qed.

(** ** Requests at the end of the list *)

Lemma nth_error_snoc_eq {A} (l : list A) x : nth_error (l ++ [x]) (length l) = Some x.
Proof. rewrite nth_error_app2 by lia. rewrite Nat.sub_diag. reflexivity. Qed.

Lemma mark_snoc l x : mark (l ++ [Some x]) (length l) = l ++ [Some (done_of x)].
Proof. unfold mark. rewrite nth_error_snoc_eq. apply upd_snoc. Qed.

Lemma done_done x : done_of (done_of x) = done_of x.
Proof. reflexivity. Qed.

(** ** One transfer *)

Definition sreq (a n : nat) (ch : chan) (k : nat) : areq := Areq a n true ch k false.
Definition rreq (a n : nat) (ch : chan) (k : nat) : areq := Areq a n false ch k false.

Lemma post_two (s : gst) i j ri rj c tag a n b n' m m' oa ob ki kj :
  nth_error (g_ranks s) i = Some ri -> nth_error (g_ranks s) j = Some rj -> i <> j -> c <> 0 ->
  p_init (r_priv ri) = true -> p_init (r_priv rj) = true ->
  quiet s (c, i, j, tag) ->
  r_prog ri = Isend c a n m j tag ki -> r_prog rj = Irecv c b n' m' i tag kj ->
  objat (r_mem ri) a = Some oa -> readable ri a = true -> n <= length (o_dat oa) ->
  objat (r_mem rj) b = Some ob -> writable rj b = true -> n' <= length (o_dat ob) ->
  let ch := (c, i, j, tag) in
  let k := c_del (chan_of s ch) in
  let d := firstn n (o_dat oa) in
  let qi := length (r_act ri) in let qj := length (r_act rj) in
  let e' := Sent a n m qi (Some d) in
  let p := Posted b n' m' qj in
  exists tr l,
    exec (Some s) tr (Some (Gst l (cset (g_chans s) ch
       (Cst (c_snd (chan_of s ch) ++ [e']) (c_rcv (chan_of s ch) ++ [p]) k)))) /\
    length l = length (g_ranks s) /\
    nth_error l i = Some (Rst (r_mem ri) (r_act ri ++ [Some (Areq a n true ch k (i_eager I n))]) (r_priv ri) (ki qi)) /\
    nth_error l j = Some (with_act rj (r_act rj ++ [Some (rreq b n' ch k)]) (kj qj)) /\
    forall x, x <> i -> x <> j -> nth_error l x = nth_error (g_ranks s) x.
Proof.
  intros Ei Ej Nij Hc Ii Ij Q Pi Pj Oa Ra La Ob Wb Lb ch k d qi qj e' p.
  assert (Li : i < length (g_ranks s)) by (apply nth_error_Some; congruence).
  assert (Lj : j < length (g_ranks s)) by (apply nth_error_Some; congruence).
  destruct Q as [Q1 Q2]. fold ch in Q1, Q2. fold k in Q1, Q2.
  set (ri1 := with_act ri (r_act ri ++ [Some (sreq a n ch k)]) (ki qi)).
  set (e := Sent a n m qi (@None (list V))).
  assert (S1 : rank_step (length (g_ranks s)) i (nsend s) (nrecv s) ri = OGo ri1 (PSend ch e d)).
  { unfold rank_step. rewrite Pi, Oa, Ra, Ii, (proj2 (Nat.leb_le _ _) La), (proj2 (Nat.ltb_lt _ _) Lj).
    destruct (Nat.eqb_spec c 0); [congruence|]. cbn [andb negb]. cbv zeta.
    unfold nsend. fold ch. rewrite <- Q1. reflexivity. }
  assert (X1 := step_rank I s i Ei S1). cbn [apply_post] in X1.
  change (cget (c0 V) (g_chans s) ch) with (chan_of s ch) in X1. cbv zeta in X1.
  set (s1 := Gst _ _) in X1.
  assert (Ej1 : nth_error (g_ranks s1) j = Some rj).
  { cbn [s1 g_ranks]. rewrite nth_error_upd. destruct (Nat.eqb_spec i j); [congruence|]. exact Ej. }
  assert (C1 : chan_of s1 ch = Cst (c_snd (chan_of s ch) ++ [e]) (c_rcv (chan_of s ch)) k).
  { unfold s1. rewrite chan_of_cset. destruct (chan_dec ch ch); [reflexivity|congruence]. }
  set (rj1 := with_act rj (r_act rj ++ [Some (rreq b n' ch k)]) (kj qj)).
  assert (S2 : rank_step (length (g_ranks s1)) j (nsend s1) (nrecv s1) rj = OGo rj1 (PRecv V ch p)).
  { unfold rank_step. rewrite Pj, Ob, Wb, Ij, (proj2 (Nat.leb_le _ _) Lb).
    assert (LL : length (g_ranks s1) = length (g_ranks s)) by apply upd_length.
    rewrite LL, (proj2 (Nat.ltb_lt _ _) Li).
    destruct (Nat.eqb_spec c 0); [congruence|]. cbn [andb negb]. cbv zeta.
    unfold nrecv. fold ch. rewrite C1. cbn [c_rcv]. rewrite <- Q2. reflexivity. }
  assert (X2 := step_rank I s1 j Ej1 S2). cbn [apply_post] in X2.
  change (cget (c0 V) (g_chans s1) ch) with (chan_of s1 ch) in X2. cbv zeta in X2. rewrite C1 in X2.
  cbn [c_snd c_rcv c_del] in X2.
  set (s2 := Gst _ _) in X2.
  assert (C2 : chan_of s2 ch = Cst (c_snd (chan_of s ch) ++ [e]) (c_rcv (chan_of s ch) ++ [p]) k).
  { unfold s2. rewrite chan_of_cset. destruct (chan_dec ch ch); [reflexivity|congruence]. }
  assert (Ei2 : nth_error (g_ranks s2) i = Some ri1).
  { cbn [s2 s1 g_ranks]. rewrite nth_error_upd. destruct (Nat.eqb_spec j i); [congruence|]. cbn [andb].
    exact (@nth_error_upd_eq _ _ _ _ _ Ei). }
  destruct (pw_exists (xf I ch e) (g_ranks s2)) as [l3 PW3].
  set (s3 := Gst l3 (cset (g_chans s2) ch (Cst (upd (c_snd (chan_of s2 ch)) k e') (c_rcv (chan_of s2 ch)) (c_del (chan_of s2 ch))))).
  assert (X3 : gstep s2 (LXmit ch k) = Some ([], Some s3)).
  { eapply xmit_intro with (e := e) (r := ri1) (o := oa).
    - rewrite C2. cbn [c_snd]. rewrite Q1. apply nth_error_snoc_eq.
    - exact Ei2.
    - reflexivity.
    - exact Oa.
    - exact PW3.
    - reflexivity. }
  exists ((post_event (PSend ch e d) ++ post_event (PRecv V ch p)) ++ [] ++ []), l3.
  assert (CM : g_chans s3 = cset (g_chans s) ch (Cst (c_snd (chan_of s ch) ++ [e']) (c_rcv (chan_of s ch) ++ [p]) k)).
  { cbn [s3 g_chans]. rewrite C2. cbn [c_snd c_rcv c_del]. rewrite Q1, upd_snoc. cbn [s2 s1 g_chans].
    rewrite !cset_set. rewrite <- Q1. reflexivity. }
  split; [|split; [|split; [|split]]].
  - rewrite <- CM. eapply exec_app; [eapply exec_app; [exact X1|exact X2]|]. econstructor; [exact X3|].
    unfold s3. cbn [g_chans]. constructor.
  - rewrite (pointwise_length PW3). cbn [s2 s1 g_ranks]. rewrite !upd_length. reflexivity.
  - rewrite (PW3 i), Ei2. cbn [option_map]. f_equal. unfold xf. cbn [s_cnt e ch_src ch fst snd].
    unfold ch at 1, ch_src. cbn [fst snd]. rewrite Nat.eqb_refl, andb_true_r.
    destruct (i_eager I n); [|reflexivity]. unfold bmark, ri1. cbn [with_act r_mem r_act r_priv r_prog s_req e].
    unfold qi. rewrite mark_snoc. reflexivity.
  - rewrite (PW3 j). cbn [s2 g_ranks]. rewrite (@nth_error_upd_eq _ _ _ _ _ Ej1). cbn [option_map]. f_equal.
    unfold xf. unfold ch at 1, ch_src. cbn [fst snd]. destruct (Nat.eqb_spec j i); [congruence|]. rewrite andb_false_r. reflexivity.
  - intros x Xi Xj. rewrite (PW3 x). cbn [s2 s1 g_ranks]. rewrite !nth_error_upd.
    destruct (Nat.eqb_spec j x); [congruence|]. destruct (Nat.eqb_spec i x); [congruence|]. cbn [andb].
    destruct (nth_error (g_ranks s) x); cbn [option_map]; auto. f_equal.
    unfold xf. unfold ch at 1, ch_src. cbn [fst snd]. destruct (Nat.eqb_spec x i); [congruence|]. rewrite andb_false_r. reflexivity.
Qed.

Lemma quiet_post (s : gst) ch (e : sent V) p l :
  quiet s ch -> quiet (Gst l (cset (g_chans s) ch
    (Cst (c_snd (chan_of s ch) ++ [e]) (c_rcv (chan_of s ch) ++ [p]) (S (c_del (chan_of s ch)))))) ch.
Proof.
  intros [Q1 Q2]. unfold quiet. rewrite chan_of_cset. destruct (chan_dec ch ch); [|congruence].
  cbn [c_snd c_rcv c_del]. rewrite !app_length. cbn [length]. lia.
Qed.

(** a send and a matching receive, from posting to completion *)
Lemma transfer_ok (s : gst) i j ri rj c tag a n b n' m oa ob ki kj :
  nth_error (g_ranks s) i = Some ri -> nth_error (g_ranks s) j = Some rj -> i <> j -> c <> 0 ->
  p_init (r_priv ri) = true -> p_init (r_priv rj) = true ->
  quiet s (c, i, j, tag) ->
  r_prog ri = Isend c a n m j tag ki -> r_prog rj = Irecv c b n' m i tag kj ->
  objat (r_mem ri) a = Some oa -> readable ri a = true -> n <= length (o_dat oa) ->
  objat (r_mem rj) b = Some ob -> writable rj b = true -> n' <= length (o_dat ob) -> n <= n' ->
  exists tr s' k, exec (Some s) tr (Some s') /\
    length (g_ranks s') = length (g_ranks s) /\
    nth_error (g_ranks s') i = Some (with_act ri (r_act ri ++ [Some (done_of (sreq a n (c, i, j, tag) k))]) (ki (length (r_act ri)))) /\
    nth_error (g_ranks s') j = Some (Rst (deliver (r_mem rj) b (firstn n (o_dat oa)))
       (r_act rj ++ [Some (done_of (rreq b n' (c, i, j, tag) k))]) (r_priv rj) (kj (length (r_act rj)))) /\
    (forall x, x <> i -> x <> j -> nth_error (g_ranks s') x = nth_error (g_ranks s) x) /\
    quiet s' (c, i, j, tag) /\
    (forall c', c' <> (c, i, j, tag) -> chan_of s' c' = chan_of s c').
Proof.
  intros Ei Ej Nij Hc Ii Ij Q Pi Pj Oa Ra La Ob Wb Lb Ln.
  destruct (@post_two s i j ri rj c tag a n b n' m m oa ob ki kj Ei Ej Nij Hc Ii Ij Q Pi Pj Oa Ra La Ob Wb Lb)
    as (tr & l & E & LL & Ni & Nj & No).
  cbv zeta in E. set (ch := (c, i, j, tag)) in *. set (k := c_del (chan_of s ch)) in *.
  set (e' := Sent _ _ _ _ _) in *. set (p := Posted _ _ _ _) in *.
  set (s3 := Gst l _) in *.
  assert (CS : ch_src ch = i) by reflexivity. assert (CD : ch_dst ch = j) by reflexivity.
  assert (C3 : chan_of s3 ch = Cst (c_snd (chan_of s ch) ++ [e']) (c_rcv (chan_of s ch) ++ [p]) k).
  { unfold s3. rewrite chan_of_cset. destruct (chan_dec ch ch); [reflexivity|congruence]. }
  destruct Q as [Q1 Q2]. fold k in Q1, Q2.
  destruct (pw_exists (mf I ch e' p (firstn n (o_dat oa))) l) as [l4 PW].
  set (s4 := Gst l4 (cset (g_chans s3) ch (Cst (c_snd (chan_of s3 ch)) (c_rcv (chan_of s3 ch)) (S (c_del (chan_of s3 ch)))))).
  assert (X4 : gstep s3 (LMatch ch) = Some ([EvRecv ch (q_buf p) (firstn n (o_dat oa))], Some s4)).
  { eapply match_intro with (e := e').
    - rewrite C3. cbn [c_snd c_del]. rewrite Q1. apply nth_error_snoc_eq.
    - rewrite C3. cbn [c_rcv c_del]. rewrite Q2. apply nth_error_snoc_eq.
    - reflexivity.
    - unfold fits. cbn [e' p s_ty q_ty q_cnt]. rewrite mty_eqb_refl. cbn [andb]. apply Nat.leb_le.
      rewrite firstn_length. lia.
    - exact PW.
    - reflexivity. }
  exists (tr ++ [EvRecv ch (q_buf p) (firstn n (o_dat oa))] ++ []), s4, k. split; [|split; [|split; [|split; [|split; [|split]]]]].
  - eapply exec_app; [exact E|]. econstructor; [exact X4|constructor].
  - cbn [s4 g_ranks]. rewrite (pointwise_length PW). exact LL.
  - cbn [s4 g_ranks]. rewrite (PW i), Ni. cbn [option_map]. f_equal. unfold mf. rewrite CS, CD. cbn [e' s_cnt s_req].
    rewrite Nat.eqb_refl. destruct (Nat.eqb_spec i j); [congruence|]. rewrite andb_true_r.
    destruct (i_eager I n) eqn:G; cbn [negb]; [reflexivity|]. unfold bmark. cbn [r_mem r_act r_priv r_prog].
    rewrite mark_snoc. reflexivity.
  - cbn [s4 g_ranks]. rewrite (PW j), Nj. cbn [option_map]. f_equal. unfold mf. rewrite CS, CD.
    rewrite Nat.eqb_refl. destruct (Nat.eqb_spec j i); [congruence|]. rewrite andb_false_r.
    unfold bmark, bdel, with_act. cbn [r_mem r_act r_priv r_prog p q_req q_buf]. rewrite mark_snoc. reflexivity.
  - intros x Xi Xj. cbn [s4 g_ranks]. rewrite (PW x), (No x Xi Xj).
    destruct (nth_error (g_ranks s) x); cbn [option_map]; auto. f_equal. unfold mf. rewrite CS, CD.
    destruct (Nat.eqb_spec x i); [congruence|]. destruct (Nat.eqb_spec x j); [congruence|]. rewrite andb_false_r. reflexivity.
  - unfold quiet, s4. rewrite chan_of_cset, C3. destruct (chan_dec ch ch); [|congruence].
    cbn [c_snd c_rcv c_del]. rewrite !app_length. cbn [length]. lia.
  - intros c' Nc. unfold s4, s3. cbn [g_chans]. rewrite chan_of_cset. destruct (chan_dec ch c'); [congruence|].
    rewrite cget_set_ne by congruence. reflexivity.
Qed.

(** the message does not fit the receive *)
Lemma transfer_err (s : gst) i j ri rj c tag a n b n' m m' oa ob ki kj :
  nth_error (g_ranks s) i = Some ri -> nth_error (g_ranks s) j = Some rj -> i <> j -> c <> 0 ->
  p_init (r_priv ri) = true -> p_init (r_priv rj) = true ->
  quiet s (c, i, j, tag) ->
  r_prog ri = Isend c a n m j tag ki -> r_prog rj = Irecv c b n' m' i tag kj ->
  objat (r_mem ri) a = Some oa -> readable ri a = true -> n <= length (o_dat oa) ->
  objat (r_mem rj) b = Some ob -> writable rj b = true -> n' <= length (o_dat ob) -> n' < n \/ m <> m' ->
  exists tr, exec (Some s) tr None.
Proof.
  intros Ei Ej Nij Hc Ii Ij Q Pi Pj Oa Ra La Ob Wb Lb Ln.
  destruct (@post_two s i j ri rj c tag a n b n' m m' oa ob ki kj Ei Ej Nij Hc Ii Ij Q Pi Pj Oa Ra La Ob Wb Lb)
    as (tr & l & E & LL & Ni & Nj & No).
  cbv zeta in E. set (ch := (c, i, j, tag)) in *. set (k := c_del (chan_of s ch)) in *.
  set (e' := Sent _ _ _ _ _) in *. set (p := Posted _ _ _ _) in *.
  set (s3 := Gst l _) in *.
  assert (CS : ch_src ch = i) by reflexivity. assert (CD : ch_dst ch = j) by reflexivity.
  assert (C3 : chan_of s3 ch = Cst (c_snd (chan_of s ch) ++ [e']) (c_rcv (chan_of s ch) ++ [p]) k).
  { unfold s3. rewrite chan_of_cset. destruct (chan_dec ch ch); [reflexivity|congruence]. }
  destruct Q as [Q1 Q2]. fold k in Q1, Q2.
  assert (X4 : gstep s3 (LMatch ch) = Some ([], None)).
  { eapply match_err with (e := e') (p := p).
    - rewrite C3. cbn [c_snd c_del]. rewrite Q1. apply nth_error_snoc_eq.
    - rewrite C3. cbn [c_rcv c_del]. rewrite Q2. apply nth_error_snoc_eq.
    - reflexivity.
    - unfold fits. cbn [e' p s_ty q_ty q_cnt]. destruct Ln as [Ln|Ln].
      + apply andb_false_iff. right. apply Nat.leb_gt. rewrite firstn_length. lia.
      + apply andb_false_iff. left. destruct m, m'; cbn; congruence. }
  exists (tr ++ [] ++ []). eapply exec_app; [exact E|]. econstructor; [exact X4|constructor].
Qed.

(** ** MPI_Send and MPI_Recv of whole vectors *)

Lemma solo_wait (r : rst) x k : r_prog r = Wait [length (r_act r) - 1] k -> 
  r_act r = removelast (r_act r) ++ [Some x] -> a_done x = true ->
  solo r (with_act r (removelast (r_act r) ++ [None]) k).
Proof.
  intros E A D. apply solo_one. intros. unfold rank_step. rewrite E.
  set (l := removelast (r_act r)) in *.
  assert (L : length (r_act r) - 1 = length l) by (rewrite A, app_length; cbn [length]; lia).
  rewrite L, A. cbn [forallb nodupb existsb negb andb]. unfold is_active, is_done. rewrite nth_error_snoc_eq, D.
  cbn [andb]. unfold forget. cbn [fold_left]. rewrite upd_snoc. reflexivity.
Qed.

Lemma solo_wait_snoc m l x pr k : a_done x = true ->
  solo (Rst m (l ++ [Some x]) pr (Wait [length l] k)) (@Rst V m (l ++ [None]) pr k).
Proof.
  intro D. apply solo_one. intros. unfold rank_step. cbn [r_prog r_act].
  cbn [forallb nodupb existsb negb andb]. unfold is_active, is_done. rewrite nth_error_snoc_eq, D.
  cbn [andb]. unfold forget. cbn [fold_left]. rewrite upd_snoc. reflexivity.
Qed.

Lemma writable_snoc_none m (r : rst) pr p a :
  writable (@Rst V m (r_act r ++ [None]) pr p) a = writable r a.
Proof. unfold writable. cbn [r_act]. rewrite existsb_app. cbn. rewrite orb_false_r. reflexivity. Qed.

Lemma solo_send_vec (r : rst) a dst tag k c o m : r_prog r = comm_Send_vec a dst tag k ->
  p_comm (r_priv r) = c -> objat (r_mem r) a = Some o -> readable r a = true -> 0 < length (o_dat o) ->
  get_type (o_ty o) = Some m ->
  solo r (with_prog r (Isend c a (length (o_dat o)) m dst tag (fun q => Wait [q] k))).
Proof.
  intros E C O R L G. eapply solo_trans; [exact (@solo_get_comm _ r _ E)|]. rewrite C.
  eapply solo_trans; [eapply solo_read; [reflexivity|exact O|exact R]|]. cbv beta.
  destruct (Nat.eqb_spec (length (o_dat o)) 0); [lia|]. unfold with_type. rewrite G. constructor.
Qed.

Lemma solo_recv_vec (r : rst) a src tag k c o m : r_prog r = comm_Recv_vec a src tag k ->
  p_comm (r_priv r) = c -> objat (r_mem r) a = Some o -> readable r a = true -> 0 < length (o_dat o) ->
  get_type (o_ty o) = Some m ->
  solo r (with_prog r (Irecv c a (length (o_dat o)) m src tag (fun q => Wait [q] k))).
Proof.
  intros E C O R L G. eapply solo_trans; [exact (@solo_get_comm _ r _ E)|]. rewrite C.
  eapply solo_trans; [eapply solo_read; [reflexivity|exact O|exact R]|]. cbv beta.
  destruct (Nat.eqb_spec (length (o_dat o)) 0); [lia|]. unfold with_type. rewrite G. constructor.
Qed.

(** both ranks up to the MPI calls *)
Lemma enter_two (s : gst) i j ri rj ri' rj' :
  nth_error (g_ranks s) i = Some ri -> nth_error (g_ranks s) j = Some rj -> i <> j ->
  solo ri ri' -> solo rj rj' ->
  exists tr, exec (Some s) tr (Some (Gst (upd (upd (g_ranks s) i ri') j rj') (g_chans s))).
Proof.
  intros Ei Ej N Si Sj. destruct (exec_solo I Si s i Ei) as [t1 E1].
  destruct (exec_solo I Sj (Gst (upd (g_ranks s) i ri') (g_chans s)) j) as [t2 E2].
  { cbn [g_ranks]. rewrite nth_error_upd. destruct (Nat.eqb_spec i j); [congruence|exact Ej]. }
  exists (t1 ++ t2). eapply exec_app; eauto.
Qed.

Lemma nth_upd_two (l : list rst) i j ri rj ri' rj' x :
  nth_error l i = Some ri -> nth_error l j = Some rj -> i <> j ->
  nth_error (upd (upd l i ri') j rj') x = if Nat.eqb x i then Some ri' else if Nat.eqb x j then Some rj' else nth_error l x.
Proof.
  intros Ei Ej N.
  assert (Li : i < length l) by (apply nth_error_Some; congruence).
  assert (Lj : j < length l) by (apply nth_error_Some; congruence).
  rewrite !nth_error_upd, upd_length. rewrite (Nat.eqb_sym x i), (Nat.eqb_sym x j).
  destruct (Nat.ltb_spec i (length l)); [|lia]. destruct (Nat.ltb_spec j (length l)); [|lia].
  rewrite !andb_true_r. destruct (Nat.eqb_spec j x), (Nat.eqb_spec i x); auto; congruence.
Qed.

Theorem send_recv_rule (s : gst) i j ri rj c tag a b oa ob ki kj :
  reachable I s ->
  nth_error (g_ranks s) i = Some ri -> nth_error (g_ranks s) j = Some rj -> i <> j ->
  ready ri c -> ready rj c -> quiet s (c, i, j, tag) ->
  r_prog ri = comm_Send_vec a j tag ki -> r_prog rj = comm_Recv_vec b i tag kj ->
  objat (r_mem ri) a = Some oa -> readable ri a = true -> holds rj b ob ->
  supported (o_ty oa) -> o_ty oa = o_ty ob -> 0 < length (o_dat oa) <= length (o_dat ob) ->
  exists s', leads I s s' /\ length (g_ranks s') = length (g_ranks s) /\
    (exists ri', nth_error (g_ranks s') i = Some ri' /\ continues ri ki ri') /\
    (exists rj', nth_error (g_ranks s') j = Some rj' /\
       assigned rj b (o_dat oa ++ skipn (length (o_dat oa)) (o_dat ob)) kj rj') /\
    (forall x, x <> i -> x <> j -> nth_error (g_ranks s') x = nth_error (g_ranks s) x) /\
    quiet s' (c, i, j, tag) /\ (forall c', c' <> (c, i, j, tag) -> chan_of s' c' = chan_of s c').
Proof.
  intros R Ei Ej N (Ii & Ci & C0) (Ij & Cj & _) Q Pi Pj Oa Ra (Ob & Wb) St Ty [L0 L1].
  destruct (supported_type St) as [m G].
  assert (Gb : get_type (o_ty ob) = Some m) by congruence.
  assert (Si := @solo_send_vec ri a j tag ki c oa m Pi Ci Oa Ra L0 G).
  assert (Sj := @solo_recv_vec rj b i tag kj c ob m Pj Cj Ob (writable_readable _ _ Wb) (Nat.lt_le_trans _ _ _ L0 L1) Gb).
  destruct (@enter_two s i j ri rj _ _ Ei Ej N Si Sj) as [t1 E1].
  set (ri1 := with_prog ri _) in E1. set (rj1 := with_prog rj _) in E1. set (s1 := Gst _ _) in E1.
  assert (N1 : forall x, nth_error (g_ranks s1) x = if Nat.eqb x i then Some ri1 else if Nat.eqb x j then Some rj1 else nth_error (g_ranks s) x)
    by (intro x; eapply nth_upd_two; eauto).
  assert (Ei1 := N1 i). rewrite Nat.eqb_refl in Ei1.
  assert (Ej1 := N1 j). rewrite Nat.eqb_refl in Ej1. destruct (Nat.eqb_spec j i) as [X|_]; [congruence|].
  destruct (@transfer_ok s1 i j ri1 rj1 c tag a (length (o_dat oa)) b (length (o_dat ob)) m oa ob
     (fun q => Wait [q] ki) (fun q => Wait [q] kj) Ei1 Ej1 N C0 Ii Ij Q eq_refl eq_refl Oa Ra (le_n _) Ob Wb (le_n _) L1)
    as (t2 & s2 & k & E2 & LL & Ei2 & Ej2 & No & Q2 & Ch).
  cbn [ri1 rj1 with_prog with_act r_mem r_act r_priv] in Ei2, Ej2.
  destruct (@enter_two s2 i j _ _ _ _ Ei2 Ej2 N (@solo_wait_snoc (r_mem ri) (r_act ri) (done_of (sreq a (length (o_dat oa)) (c, i, j, tag) k)) (r_priv ri) ki eq_refl)
     (@solo_wait_snoc (deliver (r_mem rj) b (firstn (length (o_dat oa)) (o_dat oa))) (r_act rj) (done_of (rreq b (length (o_dat ob)) (c, i, j, tag) k)) (r_priv rj) kj eq_refl)) as [t3 E3].
  set (s3 := Gst _ _) in E3.
  assert (N3 := fun x => @nth_upd_two (g_ranks s2) i j _ _ (Rst (r_mem ri) (r_act ri ++ [None]) (r_priv ri) ki)
     (Rst (deliver (r_mem rj) b (firstn (length (o_dat oa)) (o_dat oa))) (r_act rj ++ [None]) (r_priv rj) kj) x Ei2 Ej2 N).
  exists s3. split; [eapply leads_intro; [exact R|eapply exec_app; [exact E1|eapply exec_app; [exact E2|exact E3]]]|].
  split; [cbn [s3 g_ranks]; rewrite !upd_length, LL; cbn [s1 g_ranks]; rewrite !upd_length; reflexivity|].
  split; [|split; [|split; [|split]]].
  - eexists. split; [cbn [s3 g_ranks]; rewrite N3, Nat.eqb_refl; reflexivity|].
    split; [reflexivity|]. split; [reflexivity|]. split; [reflexivity|]. intro x. apply writable_snoc_none.
  - eexists. split; [cbn [s3 g_ranks]; rewrite N3, Nat.eqb_refl; destruct (Nat.eqb_spec j i); [congruence|reflexivity]|].
    split; [reflexivity|]. split; [reflexivity|]. split; [|intro x; apply writable_snoc_none].
    intro x. cbn [r_mem]. rewrite firstn_all. destruct (Nat.eqb_spec b x) as [<-|Nb].
    + rewrite objat_deliver_eq, Ob. reflexivity.
    + apply objat_deliver_ne. exact Nb.
  - intros x Xi Xj. cbn [s3 g_ranks]. rewrite N3. destruct (Nat.eqb_spec x i); [congruence|]. destruct (Nat.eqb_spec x j); [congruence|].
    rewrite (No x Xi Xj), N1. destruct (Nat.eqb_spec x i); [congruence|]. destruct (Nat.eqb_spec x j); [congruence|]. reflexivity.
  - exact Q2.
  - exact Ch.
Qed.

(** a message longer than the receiving vector, or of another type, is an error *)
Theorem send_recv_mismatch (s : gst) i j ri rj c tag a b oa ob ki kj :
  reachable I s ->
  nth_error (g_ranks s) i = Some ri -> nth_error (g_ranks s) j = Some rj -> i <> j ->
  ready ri c -> ready rj c -> quiet s (c, i, j, tag) ->
  r_prog ri = comm_Send_vec a j tag ki -> r_prog rj = comm_Recv_vec b i tag kj ->
  objat (r_mem ri) a = Some oa -> readable ri a = true -> holds rj b ob ->
  supported (o_ty oa) -> supported (o_ty ob) ->
  o_ty oa <> o_ty ob \/ length (o_dat ob) < length (o_dat oa) ->
  0 < length (o_dat oa) -> 0 < length (o_dat ob) ->
  fails I s.
Proof.
  intros R Ei Ej N (Ii & Ci & C0) (Ij & Cj & _) Q Pi Pj Oa Ra (Ob & Wb) St St' Bad L0 L1.
  destruct (supported_type St) as [m G]. destruct (supported_type St') as [m' Gb].
  assert (Si := @solo_send_vec ri a j tag ki c oa m Pi Ci Oa Ra L0 G).
  assert (Sj := @solo_recv_vec rj b i tag kj c ob m' Pj Cj Ob (writable_readable _ _ Wb) L1 Gb).
  destruct (@enter_two s i j ri rj _ _ Ei Ej N Si Sj) as [t1 E1].
  set (ri1 := with_prog ri _) in E1. set (rj1 := with_prog rj _) in E1. set (s1 := Gst _ _) in E1.
  assert (N1 : forall x, nth_error (g_ranks s1) x = if Nat.eqb x i then Some ri1 else if Nat.eqb x j then Some rj1 else nth_error (g_ranks s) x)
    by (intro x; eapply nth_upd_two; eauto).
  assert (Ei1 := N1 i). rewrite Nat.eqb_refl in Ei1.
  assert (Ej1 := N1 j). rewrite Nat.eqb_refl in Ej1. destruct (Nat.eqb_spec j i) as [X|_]; [congruence|].
  assert (Bad' : length (o_dat ob) < length (o_dat oa) \/ m <> m').
  { destruct Bad as [B|B]; auto. right. intros <-. apply B.
    destruct (o_ty oa), (o_ty ob); cbn in G, Gb; congruence. }
  destruct (@transfer_err s1 i j ri1 rj1 c tag a (length (o_dat oa)) b (length (o_dat ob)) m m' oa ob
     (fun q => Wait [q] ki) (fun q => Wait [q] kj) Ei1 Ej1 N C0 Ii Ij Q eq_refl eq_refl Oa Ra (le_n _) Ob Wb (le_n _) Bad')
    as (t2 & E2).
  eapply fails_intro; [exact R|]. eapply exec_app; [exact E1|exact E2].
Qed.
End Transfer.
