(** * MpiProof4: two agents that can act can act in either order, with the same result. *)
From Coq Require Import List Arith Bool Lia.
From Verif Require Import Base MpiMap MpiModel MpiProof MpiProof2 MpiProof3.
Import ListNotations.
Set Implicit Arguments.

Section Diamond2.
Variable V : Type.
Variable I : impl V.
Notation rst := (rst V).
Notation gst := (gst V).
Notation inv := (inv I).
Notation xf := (xf I).
Notation mf := (mf I).
Notation gstep := (gstep I).

Lemma xmit_bg s c k e : inv s -> nth_error (c_snd (chan_of s c)) k = Some e -> 
  forall i r, nth_error (g_ranks s) i = Some r -> commutes (xf c e i) r /\ cbg (xf c e i) r.
Proof.
  intros Hi E i r Er. unfold MpiProof2.xf. destruct (i_eager I (s_cnt e)); cbn [andb].
  - destruct (Nat.eqb_spec i (ch_src c)) as [->|N].
    + destruct (iv_snd Hi c k E) as (r0 & E0 & L & _). rewrite Er in E0. inversion E0; subst r0.
      split; [apply commutes_mark; auto|apply cbg_mark].
    + split; [apply commutes_id|apply cbg_id].
  - split; [apply commutes_id|apply cbg_id].
Qed.

Lemma match_bg s c e p d : inv s -> nth_error (c_snd (chan_of s c)) (c_del (chan_of s c)) = Some e ->
  nth_error (c_rcv (chan_of s c)) (c_del (chan_of s c)) = Some p ->
  forall i r, nth_error (g_ranks s) i = Some r -> commutes (mf c e p d i) r /\ cbg (mf c e p d i) r.
Proof.
  intros Hi E Ep i r Er. 
  set (f1 := fun r : rst => if Nat.eqb i (ch_dst c) then bmark (q_req p) (bdel (q_buf p) d r) else r).
  set (f2 := fun r : rst => if negb (i_eager I (s_cnt e)) && Nat.eqb i (ch_src c) then bmark (s_req e) r else r).
  assert (A1 : commutes f1 r /\ cbg f1 r /\ length (r_act (f1 r)) = length (r_act r)).
  { subst f1. cbv beta. destruct (Nat.eqb_spec i (ch_dst c)) as [->|N].
    - destruct (iv_rcv Hi c _ Ep) as (r0 & E0 & A). rewrite Er in E0. inversion E0; subst r0.
      assert (A' := A (le_n _)). destruct (iv_r Hi _ Er) as [R1 _]. destruct (R1 _ _ A') as (o & O & _). cbn in O.
      assert (RC : receiving r (q_buf p)). { eexists _, _. split; [exact A'|]. auto. }
      split; [|split].
      + apply (@commutes_comp V (bdel (q_buf p) d) (bmark (q_req p))).
        * eapply commutes_del; eauto.
        * apply commutes_mark. cbn. apply nth_error_Some. congruence.
      + apply (@cbg_comp V (bdel (q_buf p) d) (bmark (q_req p))).
        * eapply cbg_del; eauto.
        * apply cbg_mark.
      + cbn. apply mark_length.
    - split; [apply commutes_id|split; [apply cbg_id|reflexivity]]. }
  destruct A1 as (C1 & B1 & L1).
  assert (A2 : commutes f2 (f1 r) /\ cbg f2 (f1 r)).
  { subst f2. cbv beta. destruct (i_eager I (s_cnt e)); cbn [negb andb].
    - split; [apply commutes_id|apply cbg_id].
    - destruct (Nat.eqb_spec i (ch_src c)) as [->|N].
      + destruct (iv_snd Hi c _ E) as (r0 & E0 & L & _). rewrite Er in E0. inversion E0; subst r0.
        split; [apply commutes_mark; rewrite L1; auto|apply cbg_mark].
      + split; [apply commutes_id|apply cbg_id]. }
  split.
  - exact (@commutes_comp V f1 f2 r C1 (proj1 A2)).
  - exact (@cbg_comp V f1 f2 r B1 (proj2 A2)).
Qed.

(** ** A rank and the library *)

Lemma rank_vs_bg s s2 f i r :
  nth_error (g_ranks s) i = Some r -> pointwise f (g_ranks s) (g_ranks s2) -> commutes (f i) r ->
  (forall c, nsend s2 c = nsend s c) -> (forall c, nrecv s2 c = nrecv s c) ->
  (forall r' p, rank_step (length (g_ranks s)) i (nsend s) (nrecv s) r = OGo r' p ->
     gstep s2 (LRank i) = Some (post_event p, Some (Gst (upd (g_ranks s2) i (f i r')) (apply_post (g_chans s2) p)))) /\
  (rank_step (length (g_ranks s)) i (nsend s) (nrecv s) r = OErr _ -> gstep s2 (LRank i) = Some ([], None)).
Proof.
  intros Er PW CM NS NR.
  assert (E2 : nth_error (g_ranks s2) i = Some (f i r)) by (rewrite (PW i), Er; reflexivity).
  cbn [MpiModel.gstep]. rewrite E2, (pointwise_length PW).
  rewrite (@rank_step_ext V (length (g_ranks s)) i (nsend s2) (nrecv s2) (nsend s) (nrecv s) (f i r)); auto.
  destruct (CM (length (g_ranks s)) i (nsend s) (nrecv s)) as [C1 C2]. split.
  - intros r' p H. rewrite (C1 _ _ H). reflexivity.
  - intro H. rewrite (C2 H). reflexivity.
Qed.

Lemma rank_inv s i ev s1 : gstep s (LRank i) = Some (ev, s1) ->
  exists r, nth_error (g_ranks s) i = Some r /\
  match s1 with
  | None => ev = [] /\ rank_step (length (g_ranks s)) i (nsend s) (nrecv s) r = OErr _
  | Some s1 => exists r' p, rank_step (length (g_ranks s)) i (nsend s) (nrecv s) r = OGo r' p /\
      ev = post_event p /\ s1 = Gst (upd (g_ranks s) i r') (apply_post (g_chans s) p)
  end.
Proof.
  cbn [MpiModel.gstep]. destruct (nth_error (g_ranks s) i) as [r|]; [|discriminate]. intro H. exists r. split; auto.
  destruct (rank_step (length (g_ranks s)) i (nsend s) (nrecv s) r) as [| |r' p]; inversion H; subst; eauto.
Qed.

Lemma nsend_xmit s c k e m' (l : list rst) :
  m' = cset (g_chans s) c (Cst (upd (c_snd (chan_of s c)) k e) (c_rcv (chan_of s c)) (c_del (chan_of s c))) ->
  (forall c', nsend (Gst l m') c' = nsend s c') /\ (forall c', nrecv (Gst l m') c' = nrecv s c').
Proof.
  intros ->. split; intro c'; unfold nsend, nrecv; rewrite chan_of_cset; destruct (chan_dec c c') as [<-|]; cbn; auto.
  apply upd_length.
Qed.

Lemma nsend_match s c m' (l : list rst) n :
  m' = cset (g_chans s) c (Cst (c_snd (chan_of s c)) (c_rcv (chan_of s c)) n) ->
  (forall c', nsend (Gst l m') c' = nsend s c') /\ (forall c', nrecv (Gst l m') c' = nrecv s c').
Proof.
  intros ->. split; intro c'; unfold nsend, nrecv; rewrite chan_of_cset; destruct (chan_dec c c') as [<-|]; cbn; auto.
Qed.

Lemma chan_of_post l m p c : chan_of (Gst l (apply_post m p)) c = post_on p c (cget (c0 V) m c).
Proof. unfold chan_of. cbn. apply cget_post. Qed.

Lemma post_on_snd p c (x : cst V) k e :
  nth_error (c_snd x) k = Some e -> nth_error (c_snd (post_on p c x)) k = Some e.
Proof.
  intro H. destruct p as [|c' e' d|c' e']; cbn; auto; destruct (chan_dec c' c); cbn; auto.
  rewrite nth_error_app1; auto. apply nth_error_Some. congruence.
Qed.
Lemma post_on_rcv p c (x : cst V) k e :
  nth_error (c_rcv x) k = Some e -> nth_error (c_rcv (post_on p c x)) k = Some e.
Proof.
  intro H. destruct p as [|c' e' d|c' e']; cbn; auto; destruct (chan_dec c' c); cbn; auto.
  rewrite nth_error_app1; auto. apply nth_error_Some. congruence.
Qed.
Lemma post_on_del p c (x : cst V) : c_del (post_on p c x) = c_del x.
Proof. destruct p as [|c' e' d|c' e']; cbn; auto; destruct (chan_dec c' c); cbn; auto. Qed.

Lemma post_on_upd p c (x : cst V) k e : k < length (c_snd x) ->
  post_on p c (Cst (upd (c_snd x) k e) (c_rcv x) (c_del x)) =
  Cst (upd (c_snd (post_on p c x)) k e) (c_rcv (post_on p c x)) (c_del (post_on p c x)).
Proof.
  intro L. destruct p as [|c' e' d|c' e']; cbn; auto; destruct (chan_dec c' c); cbn; auto.
  rewrite upd_app_l by exact L. reflexivity.
Qed.
Lemma post_on_S p c (x : cst V) n :
  post_on p c (Cst (c_snd x) (c_rcv x) n) = Cst (c_snd (post_on p c x)) (c_rcv (post_on p c x)) n.
Proof. destruct p as [|c' e' d|c' e']; cbn; auto; destruct (chan_dec c' c); cbn; auto. Qed.

Definition joins (s1 s2 : gst) (l1 l2 : label) (e1 e2 : list (event V)) : Prop :=
  exists u, gstep s2 l1 = Some (e1, Some u) /\ gstep s1 l2 = Some (e2, Some u).

Lemma joins_sym s1 s2 l1 l2 e1 e2 : joins s1 s2 l1 l2 e1 e2 -> joins s2 s1 l2 l1 e2 e1.
Proof. intros (u & A & B). exists u. auto. Qed.

Lemma join_RX s i c k e1 e2 s1 s2 : inv s ->
  gstep s (LRank i) = Some (e1, Some s1) -> gstep s (LXmit c k) = Some (e2, Some s2) ->
  joins s1 s2 (LRank i) (LXmit c k) e1 e2.
Proof.
  intros Hi H1 H2. apply rank_inv in H1 as (r & Er & r' & p & St & -> & ->).
  apply xmit_inv in H2 as (e & ra & E & Ea & D & -> & o & O & PW & CH).
  destruct s2 as [l2 m2]. cbn in PW, CH.
  assert (NN := nsend_xmit s c k _ l2 CH). destruct NN as [NS NR].
  destruct (xmit_bg c k Hi E i Er) as [CM _].
  destruct (@rank_vs_bg s (Gst l2 m2) (xf c e) i r Er PW CM NS NR) as [G _].
  eexists. split; [exact (G _ _ St)|]. cbn [g_ranks g_chans].
  assert (Li : i < length (g_ranks s)) by (apply nth_error_Some; congruence).
  assert (Lk : k < length (c_snd (chan_of s c))) by (apply nth_error_Some; congruence).
  destruct (iv_snd Hi c k E) as (r0 & E0 & L0 & A0). rewrite Ea in E0. inversion E0; subst r0.
  assert (A := A0 (or_introl D)). clear A0 E0.
  set (s1 := Gst (upd (g_ranks s) i r') (apply_post (g_chans s) p)).
  assert (X : exists ra', nth_error (g_ranks s1) (ch_src c) = Some ra' /\ objat (r_mem ra') (s_buf e) = Some o).
  { cbn. rewrite nth_error_upd. destruct (Nat.eqb_spec i (ch_src c)) as [Ei|N].
    - destruct (Nat.ltb_spec i (length (g_ranks s))); [|lia]. cbn [andb]. exists r'. split; auto.
      rewrite <- Ei, Er in Ea. inversion Ea; subst ra.
      rewrite <- O. exact (rank_step_obj _ _ _ _ _ St A (iv_r Hi _ Er)).
    - cbn [andb]. eauto. }
  destruct X as (ra' & Ea' & O').
  apply (@xmit_intro V I s1 c k e ra' o); auto.
  - unfold s1. rewrite chan_of_post. apply post_on_snd. exact E.
  - unfold s1. cbn. apply pw_upd; auto.
  - cbn [g_chans]. unfold s1 at 2 3 4. rewrite !chan_of_post. cbn [g_chans]. rewrite CH, apply_post_cset.
    f_equal. apply post_on_upd. exact Lk.
Qed.

Lemma join_RM s i c e1 e2 s1 s2 : inv s ->
  gstep s (LRank i) = Some (e1, Some s1) -> gstep s (LMatch c) = Some (e2, Some s2) ->
  joins s1 s2 (LRank i) (LMatch c) e1 e2.
Proof.
  intros Hi H1 H2. apply rank_inv in H1 as (r & Er & r' & p & St & -> & ->).
  apply match_inv in H2 as (e & q & d & E & Eq & D & -> & FT & PW & CH).
  destruct s2 as [l2 m2]. cbn in PW, CH.
  assert (NN := nsend_match s c l2 _ CH). destruct NN as [NS NR].
  destruct (match_bg c d Hi E Eq i Er) as [CM _].
  destruct (@rank_vs_bg s (Gst l2 m2) (mf c e q d) i r Er PW CM NS NR) as [G _].
  eexists. split; [exact (G _ _ St)|]. cbn [g_ranks g_chans].
  assert (Li : i < length (g_ranks s)) by (apply nth_error_Some; congruence).
  set (s1 := Gst (upd (g_ranks s) i r') (apply_post (g_chans s) p)).
  assert (DL : c_del (chan_of s1 c) = c_del (chan_of s c)).
  { unfold s1. rewrite chan_of_post, post_on_del. reflexivity. }
  apply (@match_intro V I s1 c e q d); auto.
  - rewrite DL. unfold s1. rewrite chan_of_post. apply post_on_snd. exact E.
  - rewrite DL. unfold s1. rewrite chan_of_post. apply post_on_rcv. exact Eq.
  - unfold s1. cbn. apply pw_upd; auto.
  - cbn [g_chans]. rewrite DL. unfold s1 at 2 3. rewrite !chan_of_post. cbn [g_chans]. rewrite CH, apply_post_cset.
    f_equal. apply post_on_S.
Qed.

Lemma join_RR s i j e1 e2 s1 s2 : inv s -> i <> j ->
  gstep s (LRank i) = Some (e1, Some s1) -> gstep s (LRank j) = Some (e2, Some s2) ->
  joins s1 s2 (LRank i) (LRank j) e1 e2.
Proof.
  intros Hi N H1 H2. apply rank_inv in H1 as (r & Er & r' & p & St & -> & ->).
  apply rank_inv in H2 as (t & Et & t' & q & Su & -> & ->).
  assert (PO := rank_step_post _ _ _ _ _ St). assert (QO := rank_step_post _ _ _ _ _ Su).
  assert (Li : i < length (g_ranks s)) by (apply nth_error_Some; congruence).
  assert (Lj : j < length (g_ranks s)) by (apply nth_error_Some; congruence).
  exists (Gst (upd (upd (g_ranks s) i r') j t') (apply_post (apply_post (g_chans s) p) q)). split.
  - cbn [MpiModel.gstep g_ranks]. rewrite nth_error_upd.
    destruct (Nat.eqb_spec j i); [congruence|]. cbn [andb]. rewrite Er, upd_length.
    rewrite (@rank_step_ext V _ i _ _ (nsend s) (nrecv s) r).
    + rewrite St. unfold upd_rank. cbn [g_ranks g_chans]. rewrite upd_comm by auto. f_equal. f_equal. f_equal. f_equal.
      clear -PO QO N. destruct p as [|c1 x1 d1|c1 x1], q as [|c2 x2 d2|c2 x2]; cbn [apply_post]; auto.
      * assert (c1 <> c2) by (intros ->; destruct PO, QO; congruence).
        rewrite !cget_set_ne by congruence. apply cset_comm. congruence.
      * destruct (chan_dec c1 c2) as [->|Nc].
        -- rewrite !cget_set_eq, !cset_set. reflexivity.
        -- rewrite !cget_set_ne by congruence. apply cset_comm. congruence.
      * destruct (chan_dec c1 c2) as [->|Nc].
        -- rewrite !cget_set_eq, !cset_set. reflexivity.
        -- rewrite !cget_set_ne by congruence. apply cset_comm. congruence.
      * assert (c1 <> c2) by (intros ->; destruct PO, QO; congruence).
        rewrite !cget_set_ne by congruence. apply cset_comm. congruence.
    + intros c Hc. unfold nsend. rewrite chan_of_post. destruct q as [|c2 x2 d2|c2 x2]; cbn; auto.
      * destruct (chan_dec c2 c) as [->|]; auto. destruct QO; congruence.
      * destruct (chan_dec c2 c) as [->|]; auto.
    + intros c Hc. unfold nrecv. rewrite chan_of_post. destruct q as [|c2 x2 d2|c2 x2]; cbn; auto.
      * destruct (chan_dec c2 c) as [->|]; auto.
      * destruct (chan_dec c2 c) as [->|]; auto. destruct QO; congruence.
  - cbn [MpiModel.gstep g_ranks]. rewrite nth_error_upd.
    destruct (Nat.eqb_spec i j); [congruence|]. cbn [andb]. rewrite Et, upd_length.
    rewrite (@rank_step_ext V _ j _ _ (nsend s) (nrecv s) t).
    + rewrite Su. reflexivity.
    + intros c Hc. unfold nsend. rewrite chan_of_post. destruct p as [|c2 x2 d2|c2 x2]; cbn; auto.
      * destruct (chan_dec c2 c) as [->|]; auto. destruct PO; congruence.
      * destruct (chan_dec c2 c) as [->|]; auto.
    + intros c Hc. unfold nrecv. rewrite chan_of_post. destruct p as [|c2 x2 d2|c2 x2]; cbn; auto.
      * destruct (chan_dec c2 c) as [->|]; auto.
      * destruct (chan_dec c2 c) as [->|]; auto. destruct PO; congruence.
Qed.

(** ** The library against itself *)

Lemma xf_comm c e c' e' i r : xf c e i (xf c' e' i r) = xf c' e' i (xf c e i r).
Proof.
  unfold MpiProof2.xf. destruct (_ && Nat.eqb i (ch_src c)), (_ && Nat.eqb i (ch_src c')); auto. apply bmark_comm.
Qed.

Lemma xf_mf c e c' e' p d i r : xf c e i (mf c' e' p d i r) = mf c' e' p d i (xf c e i r).
Proof.
  unfold MpiProof2.xf, MpiProof2.mf. cbv zeta.
  destruct (i_eager I (s_cnt e) && Nat.eqb i (ch_src c)); auto.
  destruct (negb _ && _), (Nat.eqb i (ch_dst c')); auto.
  - rewrite bmark_comm. f_equal. rewrite bmark_comm. reflexivity.
  - apply bmark_comm.
  - rewrite bmark_comm. reflexivity.
Qed.

Lemma mf_comm c e p d c' e' p' d' i r :
  (i = ch_dst c -> i = ch_dst c' -> q_buf p <> q_buf p') ->
  mf c e p d i (mf c' e' p' d' i r) = mf c' e' p' d' i (mf c e p d i r).
Proof.
  intro N. unfold MpiProof2.mf. cbv zeta.
  set (A := bmark (s_req e)). set (A' := bmark (s_req e')).
  set (M := bmark (q_req p)). set (M' := bmark (q_req p')).
  assert (MM : forall q q' (x : rst), bmark q (bmark q' x) = bmark q' (bmark q x)) by (intros; apply bmark_comm).
  assert (MD : forall q a dd (x : rst), bdel a dd (bmark q x) = bmark q (bdel a dd x)) by reflexivity.
  destruct (Nat.eqb_spec i (ch_dst c)) as [E|], (Nat.eqb_spec i (ch_dst c')) as [E'|].
  - assert (BB : bdel (q_buf p) d (bdel (q_buf p') d' r) = bdel (q_buf p') d' (bdel (q_buf p) d r)).
    { apply bdel_comm. auto. }
    destruct (negb _ && Nat.eqb i (ch_src c)), (negb _ && Nat.eqb i (ch_src c'));
      unfold A, A', M, M'; rewrite ?MD, BB.
    + rewrite (MM (q_req p) (s_req e')), (MM (s_req e) (s_req e')), (MM (q_req p) (q_req p')).
      do 1 f_equal. rewrite (MM (s_req e) (q_req p')). reflexivity.
    + rewrite (MM (q_req p) (q_req p')), (MM (s_req e) (q_req p')). reflexivity.
    + rewrite (MM (q_req p) (s_req e')), (MM (q_req p) (q_req p')). reflexivity.
    + apply MM.
  - destruct (negb _ && Nat.eqb i (ch_src c)), (negb _ && Nat.eqb i (ch_src c'));
      unfold A, A', M, M'; rewrite ?MD; auto.
    rewrite (MM (q_req p) (s_req e')), (MM (s_req e) (s_req e')). reflexivity.
  - destruct (negb _ && Nat.eqb i (ch_src c)), (negb _ && Nat.eqb i (ch_src c'));
      unfold A, A', M, M'; rewrite ?MD; auto.
    rewrite (MM (s_req e) (s_req e')), (MM (s_req e) (q_req p')). reflexivity.
  - destruct (negb _ && Nat.eqb i (ch_src c)), (negb _ && Nat.eqb i (ch_src c')); auto.
    apply MM.
Qed.

(** objects with an outstanding send are not touched by the library *)
Lemma xf_mem c e i r : r_mem (xf c e i r) = r_mem r.
Proof. unfold MpiProof2.xf. destruct (_ && _); reflexivity. Qed.

Lemma mf_mem c e p d i r : r_mem (mf c e p d i r) =
  if Nat.eqb i (ch_dst c) then deliver (r_mem r) (q_buf p) d else r_mem r.
Proof. unfold MpiProof2.mf. cbv zeta. destruct (_ && _), (Nat.eqb i (ch_dst c)); reflexivity. Qed.

Lemma join_XX s c k c' k' e1 e2 s1 s2 : inv s -> (c, k) <> (c', k') ->
  gstep s (LXmit c k) = Some (e1, Some s1) -> gstep s (LXmit c' k') = Some (e2, Some s2) ->
  joins s1 s2 (LXmit c k) (LXmit c' k') e1 e2.
Proof.
  intros Hi N H1 H2.
  apply xmit_inv in H1 as (e & ra & E & Ea & D & -> & o & O & PW & CH).
  apply xmit_inv in H2 as (e' & ra' & E' & Ea' & D' & -> & o' & O' & PW' & CH').
  destruct s1 as [l1 m1], s2 as [l2 m2]. cbn in PW, CH, PW', CH'.
  destruct (pw_exists (xf c e) l2) as [lu PU].
  assert (PU' : pointwise (xf c' e') l1 lu).
  { eapply pw_swap; eauto. intros. apply xf_comm. }
  assert (C1 : chan_of (Gst l1 m1) c' = if chan_dec c c' then Cst (upd (c_snd (chan_of s c)) k
       (Sent (s_buf e) (s_cnt e) (s_ty e) (s_req e) (Some (firstn (s_cnt e) (o_dat o))))) (c_rcv (chan_of s c)) (c_del (chan_of s c))
       else chan_of s c') by (rewrite CH; apply chan_of_cset).
  assert (C2 : chan_of (Gst l2 m2) c = if chan_dec c' c then Cst (upd (c_snd (chan_of s c')) k'
       (Sent (s_buf e') (s_cnt e') (s_ty e') (s_req e') (Some (firstn (s_cnt e') (o_dat o'))))) (c_rcv (chan_of s c')) (c_del (chan_of s c'))
       else chan_of s c) by (rewrite CH'; apply chan_of_cset).
  assert (S2 : nth_error (c_snd (chan_of (Gst l2 m2) c)) k = Some e).
  { rewrite C2. destruct (chan_dec c' c) as [->|]; auto. cbn. rewrite nth_error_upd.
    destruct (Nat.eqb_spec k' k); [congruence|]. exact E. }
  assert (S1 : nth_error (c_snd (chan_of (Gst l1 m1) c')) k' = Some e').
  { rewrite C1. destruct (chan_dec c c') as [->|]; auto. cbn. rewrite nth_error_upd.
    destruct (Nat.eqb_spec k k'); [congruence|]. exact E'. }
  eexists (Gst lu _). split.
  - apply (@xmit_intro V I (Gst l2 m2) c k e (xf c' e' (ch_src c) ra) o); auto; try reflexivity.
    + cbn. rewrite (PW' (ch_src c)), Ea. reflexivity.
    + rewrite xf_mem. exact O.
  - apply (@xmit_intro V I (Gst l1 m1) c' k' e' (xf c e (ch_src c') ra') o'); auto.
    + cbn. rewrite (PW (ch_src c')), Ea'. reflexivity.
    + rewrite xf_mem. exact O'.
    + cbn [g_chans]. rewrite C1, C2. rewrite CH, CH'.
      destruct (chan_dec c c') as [<-|Nc];
        [destruct (chan_dec c c); [|congruence]|destruct (chan_dec c' c); [congruence|]].
      * rewrite !cset_set. cbn [c_snd c_rcv c_del]. f_equal. f_equal.
        apply upd_comm. intros ->. congruence.
      * rewrite cset_comm by congruence. reflexivity.
Qed.

Lemma sep_send_recv s c k e c' p r :
  inv s -> nth_error (c_snd (chan_of s c)) k = Some e -> s_dat e = None ->
  nth_error (c_rcv (chan_of s c')) (c_del (chan_of s c')) = Some p ->
  nth_error (g_ranks s) (ch_src c) = Some r -> ch_src c = ch_dst c' -> q_buf p <> s_buf e.
Proof.
  intros Hi E D Ep Er S.
  destruct (iv_snd Hi c k E) as (r1 & E1 & _ & A). rewrite Er in E1. inversion E1; subst r1.
  destruct (iv_rcv Hi c' _ Ep) as (r2 & E2 & B). rewrite <- S, Er in E2. inversion E2; subst r2.
  assert (A' := A (or_introl D)). assert (B' := B (le_n _)).
  destruct (iv_r Hi _ Er) as [_ SEP].
  assert (NQ : q_req p <> s_req e) by (intro Q; rewrite Q in B'; congruence).
  exact (SEP _ _ _ _ NQ B' A' eq_refl).
Qed.

Lemma sep_recv_recv s c p c' p' r :
  inv s -> c <> c' -> nth_error (c_rcv (chan_of s c)) (c_del (chan_of s c)) = Some p ->
  nth_error (c_rcv (chan_of s c')) (c_del (chan_of s c')) = Some p' ->
  nth_error (g_ranks s) (ch_dst c) = Some r -> ch_dst c = ch_dst c' -> q_buf p <> q_buf p'.
Proof.
  intros Hi N E Ep Er S.
  destruct (iv_rcv Hi c _ E) as (r1 & E1 & A). rewrite Er in E1. inversion E1; subst r1.
  destruct (iv_rcv Hi c' _ Ep) as (r2 & E2 & B). rewrite <- S, Er in E2. inversion E2; subst r2.
  assert (A' := A (le_n _)). assert (B' := B (le_n _)).
  destruct (iv_r Hi _ Er) as [_ SEP].
  assert (NQ : q_req p <> q_req p') by (intro Q; rewrite Q in A'; congruence).
  exact (SEP _ _ _ _ NQ A' B' eq_refl).
Qed.

Lemma join_XM s c k c' e1 e2 s1 s2 : inv s ->
  gstep s (LXmit c k) = Some (e1, Some s1) -> gstep s (LMatch c') = Some (e2, Some s2) ->
  joins s1 s2 (LXmit c k) (LMatch c') e1 e2.
Proof.
  intros Hi H1 H2.
  apply xmit_inv in H1 as (e & ra & E & Ea & D & -> & o & O & PW & CH).
  apply match_inv in H2 as (e' & q & d & E' & Eq & D' & -> & FT & PW' & CH').
  destruct s1 as [l1 m1], s2 as [l2 m2]. cbn in PW, CH, PW', CH'.
  destruct (pw_exists (xf c e) l2) as [lu PU].
  assert (PU' : pointwise (mf c' e' q d) l1 lu).
  { eapply pw_swap; eauto. intros. apply xf_mf. }
  assert (C1 : chan_of (Gst l1 m1) c' = if chan_dec c c' then Cst (upd (c_snd (chan_of s c)) k
       (Sent (s_buf e) (s_cnt e) (s_ty e) (s_req e) (Some (firstn (s_cnt e) (o_dat o))))) (c_rcv (chan_of s c)) (c_del (chan_of s c))
       else chan_of s c') by (rewrite CH; apply chan_of_cset).
  assert (C2 : chan_of (Gst l2 m2) c = if chan_dec c' c then Cst (c_snd (chan_of s c')) (c_rcv (chan_of s c')) (S (c_del (chan_of s c')))
       else chan_of s c) by (rewrite CH'; apply chan_of_cset).
  assert (DL : c_del (chan_of (Gst l1 m1) c') = c_del (chan_of s c')).
  { rewrite C1. destruct (chan_dec c c') as [->|]; reflexivity. }
  eexists (Gst lu _). split.
  - apply (@xmit_intro V I (Gst l2 m2) c k e (mf c' e' q d (ch_src c) ra) o); auto; try reflexivity.
    + rewrite C2. destruct (chan_dec c' c) as [->|]; auto.
    + cbn. rewrite (PW' (ch_src c)), Ea. reflexivity.
    + rewrite mf_mem. destruct (Nat.eqb_spec (ch_src c) (ch_dst c')) as [S|]; auto.
      rewrite objat_deliver_ne; auto. eapply sep_send_recv; eauto.
  - apply (@match_intro V I (Gst l1 m1) c' e' q d); auto.
    + rewrite DL. rewrite C1. destruct (chan_dec c c') as [->|]; auto. cbn. rewrite nth_error_upd.
      destruct (Nat.eqb_spec k (c_del (chan_of s c'))) as [->|]; [congruence|]. exact E'.
    + rewrite DL. rewrite C1. destruct (chan_dec c c') as [->|]; auto.
    + cbn [g_chans]. rewrite DL, C1, C2. rewrite CH, CH'.
      destruct (chan_dec c c') as [<-|Nc];
        [destruct (chan_dec c c); [|congruence]|destruct (chan_dec c' c); [congruence|]].
      * rewrite !cset_set. reflexivity.
      * rewrite cset_comm by congruence. reflexivity.
Qed.

Lemma join_MM s c c' e1 e2 s1 s2 : inv s -> c <> c' ->
  gstep s (LMatch c) = Some (e1, Some s1) -> gstep s (LMatch c') = Some (e2, Some s2) ->
  joins s1 s2 (LMatch c) (LMatch c') e1 e2.
Proof.
  intros Hi N H1 H2.
  apply match_inv in H1 as (e & p & d & E & Ep & D & -> & FT & PW & CH).
  apply match_inv in H2 as (e' & p' & d' & E' & Ep' & D' & -> & FT' & PW' & CH').
  destruct s1 as [l1 m1], s2 as [l2 m2]. cbn in PW, CH, PW', CH'.
  destruct (pw_exists (mf c e p d) l2) as [lu PU].
  assert (PU' : pointwise (mf c' e' p' d') l1 lu).
  { eapply pw_swap; eauto. intros i r Er. apply mf_comm. intros -> S. eapply sep_recv_recv; eauto. }
  assert (C1 : chan_of (Gst l1 m1) c' = chan_of s c').
  { rewrite CH, chan_of_cset. destruct (chan_dec c c'); [congruence|reflexivity]. }
  assert (C2 : chan_of (Gst l2 m2) c = chan_of s c).
  { rewrite CH', chan_of_cset. destruct (chan_dec c' c); [congruence|reflexivity]. }
  eexists (Gst lu _). split.
  - apply (@match_intro V I (Gst l2 m2) c e p d); rewrite ?C2; auto; try reflexivity.
  - apply (@match_intro V I (Gst l1 m1) c' e' p' d'); rewrite ?C1; auto.
    cbn [g_chans]. rewrite CH, CH'. rewrite cset_comm by congruence. reflexivity.
Qed.

(** ** Collectives *)

Lemma coll_inv s ev s' : gstep s LColl = Some (ev, s') ->
  ev = [] /\ match s' with
             | None => coll_step I (g_ranks s) = Some None
             | Some s' => coll_step I (g_ranks s) = Some (Some (g_ranks s')) /\ g_chans s' = g_chans s
             end.
Proof.
  cbn [MpiModel.gstep]. destruct (coll_step I (g_ranks s)) as [[m|]|]; intro H; inversion H; subst; auto.
Qed.

Lemma no_RC s i ev s' ev' t : gstep s (LRank i) = Some (ev, s') -> gstep s LColl = Some (ev', t) -> False.
Proof.
  intros H1 H2. apply rank_inv in H1 as (r & Er & X).
  assert (IC : in_coll r = true).
  { cbn [MpiModel.gstep] in H2. unfold coll_step in H2.
    destruct (Nat.ltb 0 (length (g_ranks s)) && forallb (@in_coll V) (g_ranks s)) eqn:A; [|discriminate].
    apply andb_true_iff in A as [_ A]. rewrite forallb_forall in A. apply A. eapply nth_error_In; eauto. }
  unfold in_coll in IC. destruct (r_prog r) eqn:P; try discriminate.
  destruct s'; [destruct X as (? & ? & X & _)|destruct X as [_ X]]; unfold rank_step in X; rewrite P in X; discriminate.
Qed.

Lemma in_coll_next s c k e2 s2 : inv s -> gstep s (LXmit c k) = Some (e2, Some s2) ->
  match coll_step I (g_ranks s) with
  | None => coll_step I (g_ranks s2) = None
  | Some None => coll_step I (g_ranks s2) = Some None
  | Some (Some m) => exists m' e, nth_error (c_snd (chan_of s c)) k = Some e /\
       coll_step I (g_ranks s2) = Some (Some m') /\ pointwise (xf c e) m m'
  end.
Proof.
  intros Hi H2. apply xmit_inv in H2 as (e & ra & E & Ea & D & -> & o & O & PW & CH).
  assert (B : forall i, i < length (g_ranks s) -> cbg (xf c e i) (rk (g_ranks s) i)).
  { intros i L. apply (xmit_bg c k Hi E i). apply rk_nth_error; auto. }
  assert (Q := coll_step_pw I PW B). destruct (coll_step I (g_ranks s)) as [[m|]|]; auto.
  destruct Q as (m' & A1 & A2). eauto.
Qed.

Lemma join_CX s c k e1 e2 s1 s2 : inv s ->
  gstep s LColl = Some (e1, Some s1) -> gstep s (LXmit c k) = Some (e2, Some s2) ->
  joins s1 s2 LColl (LXmit c k) e1 e2.
Proof.
  intros Hi H1 H2. assert (Q := in_coll_next _ _ Hi H2). assert (H1' := H1).
  apply coll_inv in H1 as (-> & CS & CC).
  apply xmit_inv in H2 as (e & ra & E & Ea & D & -> & o & O & PW & CH). rewrite CS in Q.
  destruct Q as (m' & e' & E' & CS' & PM). rewrite E in E'. inversion E'; subst e'.
  exists (Gst m' (g_chans s2)). split.
  - cbn [MpiModel.gstep]. rewrite CS'. reflexivity.
  - assert (CO : forall c, chan_of s1 c = chan_of s c) by (intro; unfold chan_of; rewrite CC; reflexivity).
    destruct (coll_step_inv I _ CS) as [_ ST]. destruct (ST _ _ Ea) as (_ & out & dd & OK & N1).
    destruct (iv_snd Hi c k E) as (r0 & E0 & L0 & A0). rewrite Ea in E0. inversion E0; subst r0.
    assert (A := A0 (or_introl D)).
    apply (@xmit_intro V I s1 c k e (coll_after ra out dd) o); rewrite ?CO; auto.
    + rewrite <- O. exact (coll_after_obj ra out dd _ OK A).
    + cbn [g_chans]. rewrite CH, CC. reflexivity.
Qed.

Lemma coll_next_M s c e2 s2 : inv s -> gstep s (LMatch c) = Some (e2, Some s2) ->
  match coll_step I (g_ranks s) with
  | None => coll_step I (g_ranks s2) = None
  | Some None => coll_step I (g_ranks s2) = Some None
  | Some (Some m) => exists m' e p d, nth_error (c_snd (chan_of s c)) (c_del (chan_of s c)) = Some e /\
       nth_error (c_rcv (chan_of s c)) (c_del (chan_of s c)) = Some p /\ s_dat e = Some d /\
       coll_step I (g_ranks s2) = Some (Some m') /\ pointwise (mf c e p d) m m'
  end.
Proof.
  intros Hi H2. apply match_inv in H2 as (e & p & d & E & Ep & D & -> & FT & PW & CH).
  assert (B : forall i, i < length (g_ranks s) -> cbg (mf c e p d i) (rk (g_ranks s) i)).
  { intros i L. apply (match_bg c d Hi E Ep i). apply rk_nth_error; auto. }
  assert (Q := coll_step_pw I PW B). destruct (coll_step I (g_ranks s)) as [[m|]|]; auto.
  destruct Q as (m' & A1 & A2). exists m', e, p, d. auto.
Qed.

Lemma join_CM s c e1 e2 s1 s2 : inv s ->
  gstep s LColl = Some (e1, Some s1) -> gstep s (LMatch c) = Some (e2, Some s2) ->
  joins s1 s2 LColl (LMatch c) e1 e2.
Proof.
  intros Hi H1 H2. assert (Q := coll_next_M _ Hi H2).
  apply coll_inv in H1 as (-> & CS & CC).
  apply match_inv in H2 as (e & p & d & E & Ep & D & -> & FT & PW & CH). rewrite CS in Q.
  destruct Q as (m' & e' & p' & d' & E' & Ep' & D' & CS' & PM).
  rewrite E in E'. inversion E'; subst e'. rewrite Ep in Ep'. inversion Ep'; subst p'.
  rewrite D in D'. inversion D'; subst d'.
  exists (Gst m' (g_chans s2)). split.
  - cbn [MpiModel.gstep]. rewrite CS'. reflexivity.
  - assert (CO : forall c, chan_of s1 c = chan_of s c) by (intro; unfold chan_of; rewrite CC; reflexivity).
    apply (@match_intro V I s1 c e p d); rewrite ?CO; auto.
    cbn [g_chans]. rewrite CH, CC. reflexivity.
Qed.

(** ** The diamond property *)

Theorem diamond s l1 l2 e1 e2 s1 s2 : inv s -> l1 <> l2 ->
  gstep s l1 = Some (e1, Some s1) -> gstep s l2 = Some (e2, Some s2) -> joins s1 s2 l1 l2 e1 e2.
Proof.
  intros Hi N H1 H2. destruct l1 as [i|c k|c|], l2 as [j|c' k'|c'|].
  - eapply join_RR; eauto; congruence.
  - eapply join_RX; eauto.
  - eapply join_RM; eauto.
  - exfalso. eapply no_RC; eauto.
  - apply joins_sym. eapply join_RX; eauto.
  - eapply join_XX; eauto; congruence.
  - eapply join_XM; eauto.
  - apply joins_sym. eapply join_CX; eauto.
  - apply joins_sym. eapply join_RM; eauto.
  - apply joins_sym. eapply join_XM; eauto.
  - eapply join_MM; eauto; congruence.
  - apply joins_sym. eapply join_CM; eauto.
  - exfalso. eapply no_RC; eauto.
  - eapply join_CX; eauto.
  - eapply join_CM; eauto.
  - congruence.
Qed.

(** an error does not go away *)
Theorem err_stable s l1 l2 e1 e2 s2 : inv s -> l1 <> l2 ->
  gstep s l1 = Some (e1, None) -> gstep s l2 = Some (e2, Some s2) -> gstep s2 l1 = Some ([], None).
Proof.
  intros Hi N H1 H2. destruct l1 as [i|c k|c|].
  - assert (H1' := H1). apply rank_inv in H1 as (r & Er & -> & St). destruct l2 as [j|c' k'|c'|].
    + apply rank_inv in H2 as (t & Et & t' & q & Su & -> & ->).
      assert (QO := rank_step_post _ _ _ _ _ Su). assert (i <> j) by congruence.
      cbn [MpiModel.gstep g_ranks]. rewrite nth_error_upd.
      destruct (Nat.eqb_spec j i); [congruence|]. cbn [andb]. rewrite Er, upd_length.
      rewrite (@rank_step_ext V _ i _ _ (nsend s) (nrecv s) r).
      * rewrite St. reflexivity.
      * intros c Hc. unfold nsend. rewrite chan_of_post. destruct q as [|c2 x2 d2|c2 x2]; cbn; auto.
        -- destruct (chan_dec c2 c) as [->|]; auto. destruct QO; congruence.
        -- destruct (chan_dec c2 c) as [->|]; auto.
      * intros c Hc. unfold nrecv. rewrite chan_of_post. destruct q as [|c2 x2 d2|c2 x2]; cbn; auto.
        -- destruct (chan_dec c2 c) as [->|]; auto.
        -- destruct (chan_dec c2 c) as [->|]; auto. destruct QO; congruence.
    + apply xmit_inv in H2 as (e & ra & E & Ea & D & -> & o & O & PW & CH).
      destruct s2 as [l2 m2]. cbn in PW, CH. destruct (nsend_xmit s c' k' _ l2 CH) as [NS NR].
      destruct (xmit_bg c' k' Hi E i Er) as [CM _].
      destruct (@rank_vs_bg s (Gst l2 m2) (xf c' e) i r Er PW CM NS NR) as [_ G]. auto.
    + apply match_inv in H2 as (e & q & d & E & Eq & D & -> & FT & PW & CH).
      destruct s2 as [l2 m2]. cbn in PW, CH. destruct (nsend_match s c' l2 _ CH) as [NS NR].
      destruct (match_bg c' d Hi E Eq i Er) as [CM _].
      destruct (@rank_vs_bg s (Gst l2 m2) (mf c' e q d) i r Er PW CM NS NR) as [_ G]. auto.
    + exfalso. eapply no_RC; eauto.
  - exfalso. apply xmit_inv in H1 as (e & r & E & Er & D & _ & O).
    destruct (iv_snd Hi c k E) as (r0 & E0 & _ & A). rewrite Er in E0. inversion E0; subst r0.
    destruct (iv_r Hi _ Er) as [R1 _]. destruct (R1 _ _ (A (or_introl D))) as (o & O' & _). cbn in O'. congruence.
  - apply match_inv in H1 as (e & p & d & E & Ep & D & _ & FT). destruct l2 as [j|c' k'|c'|].
    + apply rank_inv in H2 as (t & Et & t' & q & Su & -> & ->).
      assert (CO := fun l => chan_of_post l (g_chans s) q c).
      apply (@match_err V I _ c e p d); auto; rewrite !CO, post_on_del.
      * apply post_on_snd. exact E.
      * apply post_on_rcv. exact Ep.
    + apply xmit_inv in H2 as (e' & ra & E' & Ea & D' & -> & o & O & PW & CH).
      destruct s2 as [l2 m2]. cbn in CH. subst m2.
      apply (@match_err V I _ c e p d); auto; rewrite !chan_of_cset; destruct (chan_dec c' c) as [->|]; cbn; auto.
      rewrite nth_error_upd. destruct (Nat.eqb_spec k' (c_del (chan_of s c))) as [->|]; [congruence|]. exact E.
    + apply match_inv in H2 as (e' & p' & d' & E' & Ep' & D' & -> & FT' & PW' & CH').
      destruct s2 as [l2 m2]. cbn in CH'. subst m2. assert (c <> c') by congruence.
      apply (@match_err V I _ c e p d); auto; rewrite !chan_of_cset; destruct (chan_dec c' c) as [->|]; try congruence; auto.
    + apply coll_inv in H2 as (-> & _ & CC).
      assert (CO : forall c, chan_of s2 c = chan_of s c) by (intro; unfold chan_of; rewrite CC; reflexivity).
      apply (@match_err V I _ c e p d); rewrite ?CO; auto.
  - assert (H1' := H1). apply coll_inv in H1 as (_ & CS). destruct l2 as [j|c' k'|c'|].
    + exfalso. eapply no_RC; eauto.
    + assert (Q := in_coll_next _ _ Hi H2). rewrite CS in Q. cbn [MpiModel.gstep]. rewrite Q. reflexivity.
    + assert (Q := coll_next_M _ Hi H2). rewrite CS in Q. cbn [MpiModel.gstep]. rewrite Q. reflexivity.
    + congruence.
Qed.
End Diamond2.
