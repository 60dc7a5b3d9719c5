(** * MpiProof2: the invariant of the machine. *)
From Coq Require Import List Arith Bool Lia.
From Verif Require Import Base MpiMap MpiModel MpiProof.
Import ListNotations.
Set Implicit Arguments.

Section Invariant.
Variable V : Type.
Variable I : impl V.
Notation rst := (rst V).
Notation gst := (gst V).

(** requests point to live objects that are large enough, and no other request shares the buffer of a
    receive *)
Definition rinv (r : rst) : Prop :=
  (forall q x, nth_error (r_act r) q = Some (Some x) ->
     exists o, objat (r_mem r) (a_buf x) = Some o /\ a_cnt x <= length (o_dat o)) /\
  (forall q q' x x', q <> q' -> nth_error (r_act r) q = Some (Some x) ->
     nth_error (r_act r) q' = Some (Some x') -> a_snd x = false -> a_buf x <> a_buf x').

Definition pend (e : sent V) (c : cst V) (k : nat) : Prop :=
  s_dat e = None \/ (i_eager I (s_cnt e) = false /\ c_del c <= k).

Record inv (s : gst) : Prop := {
  iv_r : forall i r, nth_error (g_ranks s) i = Some r -> rinv r;
  iv_snd : forall c k e, nth_error (c_snd (chan_of s c)) k = Some e ->
    exists r, nth_error (g_ranks s) (ch_src c) = Some r /\ s_req e < length (r_act r) /\
      (pend e (chan_of s c) k ->
       nth_error (r_act r) (s_req e) = Some (Some (Areq (s_buf e) (s_cnt e) true c k false)));
  iv_rcv : forall c k p, nth_error (c_rcv (chan_of s c)) k = Some p ->
    exists r, nth_error (g_ranks s) (ch_dst c) = Some r /\
      (c_del (chan_of s c) <= k ->
       nth_error (r_act r) (q_req p) = Some (Some (Areq (q_buf p) (q_cnt p) false c k false)));
  iv_del : forall c, c_del (chan_of s c) <= length (c_snd (chan_of s c)) /\
                     c_del (chan_of s c) <= length (c_rcv (chan_of s c))
}.

(** ** Local steps *)

Lemma writable_unused (r : rst) a q x :
  writable r a = true -> nth_error (r_act r) q = Some (Some x) -> a_buf x <> a.
Proof.
  unfold writable. intros H E Ha. apply negb_true_iff in H.
  assert (existsb (uses a) (r_act r) = true); [|congruence].
  apply existsb_nth. exists q, (Some x). split; auto. cbn. apply Nat.eqb_eq; auto.
Qed.

Lemma readable_unreceived (r : rst) a q x :
  readable r a = true -> nth_error (r_act r) q = Some (Some x) -> a_snd x = false -> a_buf x <> a.
Proof.
  unfold readable. intros H E Hs Ha. apply negb_true_iff in H.
  assert (existsb (receives a) (r_act r) = true); [|congruence].
  apply existsb_nth. exists q, (Some x). split; auto. cbn. rewrite Hs, (proj2 (Nat.eqb_eq _ _) Ha). auto.
Qed.

Lemma objat_app m (x : list (option (obj V))) a o : objat m a = Some o -> objat (m ++ x) a = Some o.
Proof.
  intro H. assert (L := objat_lt _ _ H). unfold objat in *. rewrite nth_error_app1 by exact L. exact H.
Qed.

Lemma nth_error_snoc {A} (l : list A) x j y :
  nth_error (l ++ [x]) j = Some y ->
  (j < length l /\ nth_error l j = Some y) \/ (j = length l /\ y = x).
Proof.
  intro H. destruct (lt_dec j (length l)) as [L|L].
  - rewrite nth_error_app1 in H by exact L. auto.
  - rewrite nth_error_app2 in H by lia. destruct (j - length l) as [|n] eqn:E.
    + right. cbn in H. split; [lia|congruence].
    + cbn in H. destruct n; discriminate.
Qed.

Lemma set_dat_ne m a b (d : list V) : a <> b -> objat (set_dat m a d) b = objat m b.
Proof. intro N. unfold set_dat. destruct (objat m a); auto. apply objat_upd_ne; auto. Qed.

Lemma forget_some qs l j (x : areq) : nth_error (forget l qs) j = Some (Some x) -> nth_error l j = Some (Some x).
Proof.
  rewrite nth_error_forget. destruct (nth_error l j); [|congruence]. destruct (existsb _ qs); congruence.
Qed.

Lemma rank_step_rinv P i ns nr (r r' : rst) p : rinv r -> rank_step P i ns nr r = OGo r' p -> rinv r'.
Proof.
  intros [A B]. unfold rank_step.
  destruct (r_prog r) as [| |f k|o k|a k|a k|a d k|c a cnt t dst tag k|c a cnt t src tag k|qs k|c x k];
    intro H; try discriminate.
  - inversion H; subst. split; assumption.
  - inversion H; subst. split; [|exact B]. intros q x E. destruct (A q x E) as (o' & Ho & L).
    exists o'. split; auto. cbn. apply objat_app; auto.
  - destruct (objat (r_mem r) a) eqn:Eo; [|discriminate]. destruct (writable r a) eqn:W; [|discriminate].
    inversion H; subst. split; [|exact B]. intros q x E. destruct (A q x E) as (o' & Ho & L).
    exists o'. split; auto. cbn. rewrite objat_upd_ne; auto. intro; subst. eapply writable_unused; eauto.
  - destruct (objat (r_mem r) a) eqn:Eo; [|discriminate]. destruct (readable r a) eqn:W; [|discriminate].
    inversion H; subst. split; assumption.
  - destruct (objat (r_mem r) a) eqn:Eo; [|discriminate]. destruct (writable r a) eqn:W; [|discriminate].
    inversion H; subst. split; [|exact B]. intros q x E. destruct (A q x E) as (o' & Ho & L).
    exists o'. split; auto. cbn. rewrite set_dat_ne; auto. intro; subst. eapply writable_unused; eauto.
  - destruct (objat (r_mem r) a) eqn:Eo; [|discriminate].
    destruct (readable r a) eqn:W; [|discriminate]. destruct (Nat.leb_spec cnt (length (o_dat o))); [|discriminate].
    destruct (_ && _); [|discriminate].
    inversion H; subst. split; cbn.
    + intros q x E. apply nth_error_snoc in E as [[L E]|[-> E]].
      * apply A in E. exact E.
      * inversion E; subst. cbn. eauto.
    + intros q q' x x' N E E' Hs. apply nth_error_snoc in E as [[L E]|[-> E]];
        apply nth_error_snoc in E' as [[L' E']|[-> E']].
      * eapply B; eauto.
      * inversion E'; subst. cbn. eapply readable_unreceived; eauto.
      * inversion E; subst. discriminate.
      * congruence.
  - destruct (objat (r_mem r) a) eqn:Eo; [|discriminate].
    destruct (writable r a) eqn:W; [|discriminate]. destruct (Nat.leb_spec cnt (length (o_dat o))); [|discriminate].
    destruct (_ && _); [|discriminate].
    inversion H; subst. split; cbn.
    + intros q x E. apply nth_error_snoc in E as [[L E]|[-> E]].
      * apply A in E. exact E.
      * inversion E; subst. cbn. eauto.
    + intros q q' x x' N E E' Hs. apply nth_error_snoc in E as [[L E]|[-> E]];
        apply nth_error_snoc in E' as [[L' E']|[-> E']].
      * eapply B; eauto.
      * inversion E'; subst. cbn. eapply writable_unused; eauto.
      * inversion E; subst. cbn. intro X. symmetry in X. eapply writable_unused; eauto.
      * congruence.
  - destruct (_ && _); [|discriminate]. destruct (forallb _ qs); [|discriminate].
    inversion H; subst. split; cbn.
    + intros q x E. apply forget_some in E. apply A in E. exact E.
    + intros q q' x x' N E E' Hs. apply forget_some in E. apply forget_some in E'. eapply B; eauto.
Qed.

(** a local step keeps unfinished requests *)
Lemma rank_step_act P i ns nr (r r' : rst) p q x :
  rank_step P i ns nr r = OGo r' p -> nth_error (r_act r) q = Some (Some x) -> a_done x = false ->
  nth_error (r_act r') q = Some (Some x).
Proof.
  unfold rank_step.
  destruct (r_prog r) as [| |f k|o k|a k|a k|a d k|c a cnt t dst tag k|c a cnt t src tag k|qs k|c xx k];
    intros H E D; try discriminate;
    try (destruct (objat (r_mem r) a) eqn:Eo; [|discriminate]);
    try (destruct (writable r a) eqn:W; [|discriminate]);
    try (destruct (readable r a) eqn:W; [|discriminate]);
    try (inversion H; subst; exact E).
  - destruct (_ && _ && _ && _); [|discriminate]. inversion H; subst. cbn.
    rewrite nth_error_app1; auto. apply nth_error_Some. congruence.
  - destruct (_ && _ && _ && _); [|discriminate]. inversion H; subst. cbn.
    rewrite nth_error_app1; auto. apply nth_error_Some. congruence.
  - destruct (_ && _); [|discriminate]. destruct (forallb (is_done (r_act r)) qs) eqn:F; [|discriminate].
    inversion H; subst. cbn. rewrite nth_error_forget, E.
    destruct (existsb (Nat.eqb q) qs) eqn:X; auto.
    apply existsb_exists in X as (q' & Hq & Heq). apply Nat.eqb_eq in Heq. subst q'.
    rewrite forallb_forall in F. apply F in Hq. unfold is_done in Hq. rewrite E in Hq. congruence.
Qed.

Lemma rank_step_len P i ns nr (r r' : rst) p :
  rank_step P i ns nr r = OGo r' p -> length (r_act r) <= length (r_act r').
Proof.
  unfold rank_step.
  destruct (r_prog r) as [| |f k|o k|a k|a k|a d k|c a cnt t dst tag k|c a cnt t src tag k|qs k|c xx k];
    intros H; try discriminate;
    try (destruct (objat (r_mem r) a) eqn:Eo; [|discriminate]);
    try (destruct (writable r a) eqn:W; [|discriminate]);
    try (destruct (readable r a) eqn:W; [|discriminate]);
    try (inversion H; subst; cbn; lia).
  - destruct (_ && _ && _ && _); [|discriminate]. inversion H; subst. cbn. rewrite app_length. lia.
  - destruct (_ && _ && _ && _); [|discriminate]. inversion H; subst. cbn. rewrite app_length. lia.
  - destruct (_ && _); [|discriminate]. destruct (forallb (is_done (r_act r)) qs) eqn:F; [|discriminate].
    inversion H; subst. cbn. rewrite forget_length. lia.
Qed.

(** a local step keeps the objects of unfinished requests *)
Lemma rank_step_obj P i ns nr (r r' : rst) p q x :
  rank_step P i ns nr r = OGo r' p -> nth_error (r_act r) q = Some (Some x) -> rinv r ->
  objat (r_mem r') (a_buf x) = objat (r_mem r) (a_buf x).
Proof.
  unfold rank_step.
  destruct (r_prog r) as [| |f k|o k|a k|a k|a d k|c a cnt t dst tag k|c a cnt t src tag k|qs k|c xx k];
    intros H E R; try discriminate;
    try (destruct (objat (r_mem r) a) eqn:Eo; [|discriminate]);
    try (destruct (writable r a) eqn:W; [|discriminate]);
    try (destruct (readable r a) eqn:W; [|discriminate]);
    try (inversion H; subst; reflexivity).
  - inversion H; subst. cbn. destruct R as [A _]. destruct (A _ _ E) as (o' & Ho & _). rewrite Ho.
    apply objat_app; auto.
  - inversion H; subst. cbn. apply objat_upd_ne. intro; subst. eapply writable_unused; eauto.
  - inversion H; subst. cbn. apply set_dat_ne. intro; subst. eapply writable_unused; eauto.
  - destruct (_ && _ && _ && _); [|discriminate]. inversion H; subst. reflexivity.
  - destruct (_ && _ && _ && _); [|discriminate]. inversion H; subst. reflexivity.
  - destruct (_ && _); [|discriminate]. destruct (forallb (is_done (r_act r)) qs) eqn:F; [|discriminate].
    inversion H; subst. reflexivity.
Qed.

(** what a local step posts *)
Lemma rank_step_post P i ns nr (r r' : rst) p :
  rank_step P i ns nr r = OGo r' p ->
  match p with
  | PNone _ => True
  | PSend c e d => ch_src c = i /\ s_dat e = None /\ s_req e = length (r_act r) /\
      (exists o, objat (r_mem r) (s_buf e) = Some o /\ d = firstn (s_cnt e) (o_dat o)) /\
      nth_error (r_act r') (s_req e) = Some (Some (Areq (s_buf e) (s_cnt e) true c (ns c) false))
  | PRecv _ c e => ch_dst c = i /\
      nth_error (r_act r') (q_req e) = Some (Some (Areq (q_buf e) (q_cnt e) false c (nr c) false))
  end.
Proof.
  unfold rank_step.
  destruct (r_prog r) as [| |f k|o k|a k|a k|a d k|c a cnt t dst tag k|c a cnt t src tag k|qs k|c xx k];
    intros H; try discriminate;
    try (destruct (objat (r_mem r) a) eqn:Eo; [|discriminate]);
    try (destruct (writable r a) eqn:W; [|discriminate]);
    try (destruct (readable r a) eqn:W; [|discriminate]);
    try (inversion H; subst; exact Logic.I).
  - destruct (_ && _ && _ && _); [|discriminate]. inversion H; subst. cbn.
    split; [reflexivity|]. split; [reflexivity|]. split; [reflexivity|]. split; [eauto|].
    rewrite nth_error_app2 by lia. rewrite Nat.sub_diag. reflexivity.
  - destruct (_ && _ && _ && _); [|discriminate]. inversion H; subst. cbn. split; [reflexivity|].
    rewrite nth_error_app2 by lia. rewrite Nat.sub_diag. reflexivity.
  - destruct (_ && _); [|discriminate]. destruct (forallb (is_done (r_act r)) qs) eqn:F; [|discriminate].
    inversion H; subst. exact Logic.I.
Qed.

(** only the channels leaving (for sends) or entering (for receives) rank [i] matter to it *)
Lemma rank_step_ext P i ns nr ns' nr' (r : rst) :
  (forall c, ch_src c = i -> ns c = ns' c) -> (forall c, ch_dst c = i -> nr c = nr' c) ->
  rank_step P i ns nr r = rank_step P i ns' nr' r.
Proof.
  intros A B. unfold rank_step.
  destruct (r_prog r) as [| |f k|o k|a k|a k|a d k|c a cnt t dst tag k|c a cnt t src tag k|qs k|c xx k];
    try reflexivity.
  - rewrite A by reflexivity. reflexivity.
  - rewrite B by reflexivity. reflexivity.
Qed.

(** ** Background effects keep the invariant of a rank *)

Lemma rinv_mark q (r : rst) : rinv r -> rinv (bmark q r).
Proof.
  intros [A B].
  assert (M : forall j x, nth_error (mark (r_act r) q) j = Some (Some x) ->
     exists y, nth_error (r_act r) j = Some (Some y) /\ a_buf x = a_buf y /\ a_cnt x = a_cnt y /\ a_snd x = a_snd y).
  { intros j x E. rewrite nth_error_mark in E. destruct (Nat.eqb j q).
    - destruct (nth_error (r_act r) j) as [[y|]|]; cbn in E; inversion E; subst. exists y. auto.
    - exists x. auto. }
  split; cbn.
  - intros j x E. apply M in E as (y & E & -> & -> & _). eauto.
  - intros j j' x x' N E E' Hs. apply M in E as (y & E & -> & _ & S). apply M in E' as (y' & E' & -> & _).
    eapply B; eauto; congruence.
Qed.

Lemma rinv_del a d (r : rst) o : rinv r -> objat (r_mem r) a = Some o -> length d <= length (o_dat o) -> rinv (bdel a d r).
Proof.
  intros [A B] Ho L. split; cbn; [|exact B].
  intros q x E. destruct (A _ _ E) as (o' & Ho' & L').
  destruct (Nat.eq_dec a (a_buf x)) as [E2|N].
  - rewrite <- E2 in *. rewrite objat_deliver_eq, Ho. cbn. eexists. split; [reflexivity|]. cbn.
    rewrite prefix_write_length by exact L. congruence.
  - rewrite objat_deliver_ne by exact N. eauto.
Qed.

(** ** Steps as pointwise effects *)

Definition xf (c : chan) (e : sent V) (i : nat) (r : rst) : rst :=
  if i_eager I (s_cnt e) && Nat.eqb i (ch_src c) then bmark (s_req e) r else r.

Definition mf (c : chan) (e : sent V) (p : posted) (d : list V) (i : nat) (r : rst) : rst :=
  let r1 := if Nat.eqb i (ch_dst c) then bmark (q_req p) (bdel (q_buf p) d r) else r in
  if negb (i_eager I (s_cnt e)) && Nat.eqb i (ch_src c) then bmark (s_req e) r1 else r1.

Lemma pw_mark_rank l i q :
  pointwise (fun j r => if Nat.eqb j i then bmark q r else r) l (mark_rank (V:=V) l i q).
Proof.
  intro j. unfold mark_rank. destruct (nth_error l i) as [r|] eqn:E.
  - rewrite nth_error_upd. destruct (Nat.eqb_spec i j) as [->|N].
    + assert (L : j < length l) by (apply nth_error_Some; congruence).
      destruct (Nat.ltb_spec j (length l)); [|lia]. rewrite E, Nat.eqb_refl. reflexivity.
    + cbn. destruct (Nat.eqb_spec j i); [congruence|]. destruct (nth_error l j); reflexivity.
  - destruct (Nat.eqb_spec j i) as [->|N].
    + rewrite E. reflexivity.
    + destruct (nth_error l j); reflexivity.
Qed.

Lemma pw_deliver_rank l i a d :
  pointwise (fun j r => if Nat.eqb j i then bdel a d r else r) l (deliver_rank (V:=V) l i a d).
Proof.
  intro j. unfold deliver_rank. destruct (nth_error l i) as [r|] eqn:E.
  - rewrite nth_error_upd. destruct (Nat.eqb_spec i j) as [->|N].
    + assert (L : j < length l) by (apply nth_error_Some; congruence).
      destruct (Nat.ltb_spec j (length l)); [|lia]. rewrite E, Nat.eqb_refl. reflexivity.
    + cbn. destruct (Nat.eqb_spec j i); [congruence|]. destruct (nth_error l j); reflexivity.
  - destruct (Nat.eqb_spec j i) as [->|N].
    + rewrite E. reflexivity.
    + destruct (nth_error l j); reflexivity.
Qed.

Lemma pw_xmit l c e :
  pointwise (xf c e) l (if i_eager I (s_cnt e) then mark_rank l (ch_src c) (s_req e) else l).
Proof.
  intro j. unfold xf. destruct (i_eager I (s_cnt e)); cbn.
  - apply pw_mark_rank.
  - destruct (nth_error l j); reflexivity.
Qed.

Lemma pw_match l c e p d :
  pointwise (mf c e p d) l
    (let l1 := deliver_rank l (ch_dst c) (q_buf p) d in
     let l2 := mark_rank l1 (ch_dst c) (q_req p) in
     if i_eager I (s_cnt e) then l2 else mark_rank l2 (ch_src c) (s_req e)).
Proof.
  intro j. cbv zeta. unfold mf.
  assert (A : nth_error (mark_rank (deliver_rank l (ch_dst c) (q_buf p) d) (ch_dst c) (q_req p)) j =
    option_map (fun r => if Nat.eqb j (ch_dst c) then bmark (q_req p) (bdel (q_buf p) d r) else r) (nth_error l j)).
  { rewrite (pw_mark_rank _ _ _ j), (pw_deliver_rank _ _ _ _ j).
    destruct (nth_error l j); cbn; auto. destruct (Nat.eqb j (ch_dst c)); reflexivity. }
  destruct (i_eager I (s_cnt e)); cbn [negb andb].
  - exact A.
  - rewrite (pw_mark_rank _ _ _ j), A. destruct (nth_error l j); reflexivity.
Qed.

Lemma pointwise_det (f : nat -> rst -> rst) l m m' : pointwise f l m -> pointwise f l m' -> m = m'.
Proof. intros A B. apply nth_error_ext. intro i. rewrite (A i), (B i). reflexivity. Qed.

(** the two library steps, in terms of these effects *)
Lemma xmit_inv s c k ev s' : gstep I s (LXmit c k) = Some (ev, s') ->
  exists e r, nth_error (c_snd (chan_of s c)) k = Some e /\ nth_error (g_ranks s) (ch_src c) = Some r /\
    s_dat e = None /\ ev = [] /\
    match s' with
    | None => objat (r_mem r) (s_buf e) = None
    | Some s' => exists o, objat (r_mem r) (s_buf e) = Some o /\
        pointwise (xf c e) (g_ranks s) (g_ranks s') /\
        g_chans s' = cset (g_chans s) c
          (Cst (upd (c_snd (chan_of s c)) k
                  (Sent (s_buf e) (s_cnt e) (s_ty e) (s_req e) (Some (firstn (s_cnt e) (o_dat o)))))
               (c_rcv (chan_of s c)) (c_del (chan_of s c)))
    end.
Proof.
  cbn [gstep]. cbv zeta. intro H.
  destruct (nth_error (c_snd (chan_of s c)) k) as [e|]; [|discriminate].
  destruct (nth_error (g_ranks s) (ch_src c)) as [r|]; [|discriminate].
  destruct (s_dat e) eqn:D; [discriminate|].
  exists e, r. split; [reflexivity|]. split; [reflexivity|]. split; [exact D|].
  destruct (objat (r_mem r) (s_buf e)) as [o|] eqn:O; inversion H; subst; split; auto.
  exists o. split; auto. split; [|reflexivity]. apply pw_xmit.
Qed.

Lemma xmit_intro s c k e r o s' :
  nth_error (c_snd (chan_of s c)) k = Some e -> nth_error (g_ranks s) (ch_src c) = Some r ->
  s_dat e = None -> objat (r_mem r) (s_buf e) = Some o ->
  pointwise (xf c e) (g_ranks s) (g_ranks s') ->
  g_chans s' = cset (g_chans s) c
          (Cst (upd (c_snd (chan_of s c)) k
                  (Sent (s_buf e) (s_cnt e) (s_ty e) (s_req e) (Some (firstn (s_cnt e) (o_dat o)))))
               (c_rcv (chan_of s c)) (c_del (chan_of s c))) ->
  gstep I s (LXmit c k) = Some ([], Some s').
Proof.
  intros A B D O P C. cbn [gstep]. cbv zeta. rewrite A, B, D, O. destruct s' as [l m]. cbn in *. subst m.
  rewrite (pointwise_det P (pw_xmit (g_ranks s) c e)). reflexivity.
Qed.

Definition fits (e : sent V) (p : posted) (d : list V) : bool :=
  mty_eqb (s_ty e) (q_ty p) && Nat.leb (length d) (q_cnt p).

Lemma match_inv s c ev s' : gstep I s (LMatch c) = Some (ev, s') ->
  exists e p d, nth_error (c_snd (chan_of s c)) (c_del (chan_of s c)) = Some e /\
    nth_error (c_rcv (chan_of s c)) (c_del (chan_of s c)) = Some p /\ s_dat e = Some d /\
    match s' with
    | None => ev = [] /\ fits e p d = false
    | Some s' => ev = [EvRecv c (q_buf p) d] /\ fits e p d = true /\
        pointwise (mf c e p d) (g_ranks s) (g_ranks s') /\
        g_chans s' = cset (g_chans s) c
          (Cst (c_snd (chan_of s c)) (c_rcv (chan_of s c)) (S (c_del (chan_of s c))))
    end.
Proof.
  cbn [gstep]. cbv zeta. intro H.
  destruct (nth_error (c_snd (chan_of s c)) (c_del (chan_of s c))) as [e|]; [|discriminate].
  destruct (nth_error (c_rcv (chan_of s c)) (c_del (chan_of s c))) as [p|]; [|discriminate].
  destruct (s_dat e) as [d|] eqn:D; [|discriminate].
  exists e, p, d. split; [reflexivity|]. split; [reflexivity|]. split; [exact D|]. unfold fits.
  destruct (mty_eqb (s_ty e) (q_ty p) && Nat.leb (length d) (q_cnt p)) eqn:F; inversion H; subst;
    (split; [reflexivity|]); auto.
  split; [reflexivity|]. split; [|reflexivity]. exact (pw_match (g_ranks s) c e p d).
Qed.

Lemma match_intro s c e p d s' :
  nth_error (c_snd (chan_of s c)) (c_del (chan_of s c)) = Some e ->
  nth_error (c_rcv (chan_of s c)) (c_del (chan_of s c)) = Some p -> s_dat e = Some d ->
  fits e p d = true -> pointwise (mf c e p d) (g_ranks s) (g_ranks s') ->
  g_chans s' = cset (g_chans s) c
          (Cst (c_snd (chan_of s c)) (c_rcv (chan_of s c)) (S (c_del (chan_of s c)))) ->
  gstep I s (LMatch c) = Some ([EvRecv c (q_buf p) d], Some s').
Proof.
  intros A B D F P C. cbn [gstep]. cbv zeta. rewrite A, B, D. unfold fits in F. rewrite F.
  destruct s' as [l m]. cbn in *. subst m. rewrite (pointwise_det P (pw_match (g_ranks s) c e p d)). reflexivity.
Qed.

Lemma match_err s c e p d :
  nth_error (c_snd (chan_of s c)) (c_del (chan_of s c)) = Some e ->
  nth_error (c_rcv (chan_of s c)) (c_del (chan_of s c)) = Some p -> s_dat e = Some d ->
  fits e p d = false -> gstep I s (LMatch c) = Some ([], None).
Proof. intros A B D F. cbn [gstep]. cbv zeta. rewrite A, B, D. unfold fits in F. rewrite F. reflexivity. Qed.
End Invariant.
