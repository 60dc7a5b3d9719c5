(** * MpiProof3: the invariant is preserved; any two agents that can act can act in either order. *)
From Coq Require Import List Arith Bool Lia.
From Verif Require Import Base MpiMap MpiModel MpiProof MpiProof2.
Import ListNotations.
Set Implicit Arguments.

Section Diamond.
Variable V : Type.
Variable I : impl V.
Notation rst := (rst V).
Notation gst := (gst V).
Notation inv := (inv I).
Notation xf := (xf I).
Notation mf := (mf I).

(** ** Channels after a local step *)

Definition post_on (p : post V) (c : chan) (x : cst V) : cst V :=
  match p with
  | PNone _ => x
  | PSend c' e _ => if chan_dec c' c then Cst (c_snd x ++ [e]) (c_rcv x) (c_del x) else x
  | PRecv _ c' e => if chan_dec c' c then Cst (c_snd x) (c_rcv x ++ [e]) (c_del x) else x
  end.

Lemma cget_post m p c : cget (c0 V) (apply_post m p) c = post_on p c (cget (c0 V) m c).
Proof.
  destruct p as [|c' e d|c' e]; cbn; auto; destruct (chan_dec c' c) as [->|N].
  - rewrite cget_set_eq. reflexivity.
  - rewrite cget_set_ne by exact N. reflexivity.
  - rewrite cget_set_eq. reflexivity.
  - rewrite cget_set_ne by exact N. reflexivity.
Qed.

Lemma apply_post_cset m p c x : apply_post (cset m c x) p = cset (apply_post m p) c (post_on p c x).
Proof.
  destruct p as [|c' e d|c' e]; cbn; auto; destruct (chan_dec c' c) as [->|N].
  - rewrite cget_set_eq, !cset_set. reflexivity.
  - rewrite cget_set_ne by congruence. apply cset_comm. congruence.
  - rewrite cget_set_eq, !cset_set. reflexivity.
  - rewrite cget_set_ne by congruence. apply cset_comm. congruence.
Qed.

Lemma chan_of_cset l m c x c' : chan_of (Gst l (cset m c x)) c' = if chan_dec c c' then x else cget (c0 V) m c'.
Proof.
  unfold chan_of. cbn. destruct (chan_dec c c') as [->|N].
  - apply cget_set_eq.
  - apply cget_set_ne; auto.
Qed.

(** ** Background effects, index by index *)

Lemma xf_act c e i r q : (i_eager I (s_cnt e) = true -> i = ch_src c -> q <> s_req e) ->
  nth_error (r_act (xf c e i r)) q = nth_error (r_act r) q.
Proof.
  intro H. unfold MpiProof2.xf. destruct (i_eager I (s_cnt e)); cbn; auto.
  destruct (Nat.eqb_spec i (ch_src c)) as [E|]; auto. cbn. rewrite nth_error_mark.
  destruct (Nat.eqb_spec q (s_req e)); auto. exfalso. eapply H; eauto.
Qed.

Lemma xf_len c e i r : length (r_act (xf c e i r)) = length (r_act r).
Proof.
  unfold MpiProof2.xf. destruct (i_eager I (s_cnt e)); cbn; auto.
  destruct (Nat.eqb i (ch_src c)); auto. cbn. apply mark_length.
Qed.

Lemma mf_act c e p d i r q : (i = ch_dst c -> q <> q_req p) ->
  (i_eager I (s_cnt e) = false -> i = ch_src c -> q <> s_req e) ->
  nth_error (r_act (mf c e p d i r)) q = nth_error (r_act r) q.
Proof.
  intros H1 H2. unfold MpiProof2.mf. cbv zeta.
  assert (A : nth_error (r_act (if Nat.eqb i (ch_dst c) then bmark (q_req p) (bdel (q_buf p) d r) else r)) q =
              nth_error (r_act r) q).
  { destruct (Nat.eqb_spec i (ch_dst c)) as [E|]; auto. cbn. rewrite nth_error_mark.
    destruct (Nat.eqb_spec q (q_req p)); auto. exfalso. eapply H1; eauto. }
  destruct (i_eager I (s_cnt e)); cbn [negb andb]; auto.
  destruct (Nat.eqb_spec i (ch_src c)) as [E|]; auto.
  cbn. rewrite nth_error_mark. destruct (Nat.eqb_spec q (s_req e)); auto. exfalso. eapply H2; eauto.
Qed.

Lemma mf_len c e p d i r : length (r_act (mf c e p d i r)) = length (r_act r).
Proof.
  unfold MpiProof2.mf. cbv zeta. destruct (_ && _); cbn; rewrite ?mark_length;
    destruct (Nat.eqb i (ch_dst c)); cbn; rewrite ?mark_length; reflexivity.
Qed.

Lemma rinv_xf c e i r : rinv r -> rinv (xf c e i r).
Proof. intro H. unfold MpiProof2.xf. destruct (_ && _); auto. apply rinv_mark; auto. Qed.

Lemma rinv_mf c e p d i r :
  rinv r -> (i = ch_dst c -> exists o, objat (r_mem r) (q_buf p) = Some o /\ length d <= length (o_dat o)) ->
  rinv (mf c e p d i r).
Proof.
  intros H Ho. unfold MpiProof2.mf. cbv zeta.
  assert (A : rinv (if Nat.eqb i (ch_dst c) then bmark (q_req p) (bdel (q_buf p) d r) else r)).
  { destruct (Nat.eqb_spec i (ch_dst c)) as [E|]; auto. apply rinv_mark.
    destruct (Ho E) as (o & O & L). eapply rinv_del; eauto. }
  destruct (_ && _); auto. apply rinv_mark; auto.
Qed.

Lemma pw_exists (f : nat -> rst -> rst) l : exists l', pointwise f l l'.
Proof.
  revert f. induction l as [|r l IH]; intro f.
  - exists []. intro i. destruct i; reflexivity.
  - destruct (IH (fun i => f (S i))) as [l' H]. exists (f 0 r :: l'). intros [|i]; cbn; auto.
Qed.

Lemma pw_swap (f g : nat -> rst -> rst) l l1 l2 lu :
  pointwise f l l1 -> pointwise g l l2 -> pointwise f l2 lu ->
  (forall i r, nth_error l i = Some r -> f i (g i r) = g i (f i r)) -> pointwise g l1 lu.
Proof.
  intros F G FU C i. rewrite (FU i), (G i), (F i). destruct (nth_error l i) as [r|] eqn:E; cbn; auto.
  rewrite C; auto.
Qed.

Lemma pw_upd (f : nat -> rst -> rst) l l' i r : pointwise f l l' -> i < length l ->
  pointwise f (upd l i r) (upd l' i (f i r)).
Proof.
  intros H L j. rewrite !nth_error_upd. rewrite (pointwise_length H).
  destruct (Nat.ltb_spec i (length l)); [|lia]. destruct (Nat.eqb_spec i j) as [->|N]; cbn; auto.
Qed.

Lemma bmark_comm q q' (r : rst) : bmark q (bmark q' r) = bmark q' (bmark q r).
Proof.
  unfold bmark. cbn. f_equal. apply nth_error_ext. intro j. rewrite !nth_error_mark.
  destruct (Nat.eqb j q), (Nat.eqb j q'); reflexivity.
Qed.

Lemma bmark_bdel q a d (r : rst) : bmark q (bdel a d r) = bdel a d (bmark q r).
Proof. reflexivity. Qed.

Lemma bdel_comm a b d d' (r : rst) : a <> b -> bdel a d (bdel b d' r) = bdel b d' (bdel a d r).
Proof. intro N. unfold bdel. cbn. f_equal. apply deliver_comm. congruence. Qed.

(** ** A collective leaves requests alone and keeps the objects of outstanding ones *)

Lemma coll_step_inv l m : coll_step I l = Some (Some m) ->
  length m = length l /\
  forall i r, nth_error l i = Some r -> in_coll r = true /\
    exists out d, out_ok r out = true /\ nth_error m i = Some (coll_after r out d).
Proof.
  unfold coll_step. destruct (Nat.ltb 0 (length l) && forallb (@in_coll V) l) eqn:A; [|discriminate].
  set (x0 := coll_args _). destruct (forallb (coll_ok I l x0) (seq 0 (length l))) eqn:G; [|discriminate].
  intro H. inversion H; subst m. clear H. rewrite map_length, seq_length. split; auto.
  intros i r E. apply andb_true_iff in A as [_ A]. rewrite forallb_forall in A.
  split; [apply A; eapply nth_error_In; eauto|].
  assert (L : i < length l) by (apply nth_error_Some; congruence).
  assert (R : rk l i = r). { unfold rk. apply nth_error_nth. exact E. }
  exists (coll_out (length l) i (coll_args (rk l i))), (coll_res I x0 (coll_ins l) i). split.
  - rewrite forallb_forall in G. assert (G' := G i). unfold coll_ok in G'.
    rewrite !andb_true_iff in G'. rewrite <- R.
    destruct G' as ((((((_ & _) & _) & _) & _) & B) & _); auto. apply in_seq. lia.
  - rewrite <- R. apply map_nth_error with (f := fun i => coll_after (rk l i) (coll_out (length l) i (coll_args (rk l i)))
                                              (coll_res I x0 (coll_ins l) i)).
    rewrite nth_error_nth' with (d := 0) by (rewrite seq_length; lia). rewrite seq_nth by lia. reflexivity.
Qed.

Lemma coll_after_act (r : rst) out d : r_act (coll_after r out d) = r_act r.
Proof. destruct out as [[b n]|]; reflexivity. Qed.

Lemma coll_after_obj (r : rst) out d q x : out_ok r out = true -> nth_error (r_act r) q = Some (Some x) ->
  objat (r_mem (coll_after r out d)) (a_buf x) = objat (r_mem r) (a_buf x).
Proof.
  intros H E. destruct out as [[b n]|]; cbn; auto. cbn in H.
  destruct (objat (r_mem r) b) eqn:O; [|discriminate]. apply andb_true_iff in H as [W _].
  apply objat_deliver_ne. intro; subst. eapply writable_unused; eauto.
Qed.

(** ** The invariant is preserved *)

Lemma inv_step s l ev s' : inv s -> gstep I s l = Some (ev, Some s') -> inv s'.
Proof.
  intros Hinv H. destruct l as [i|c k|c|].
  - cbn [gstep] in H. destruct (nth_error (g_ranks s) i) as [r|] eqn:Er; [|discriminate].
    destruct (rank_step (length (g_ranks s)) i (nsend s) (nrecv s) r) as [| |r' p] eqn:St; try discriminate.
    inversion H; subst. clear H.
    assert (Li : i < length (g_ranks s)) by (apply nth_error_Some; congruence).
    assert (PO := rank_step_post _ _ _ _ _ St).
    assert (N : forall j, nth_error (upd_rank s i r') j = if Nat.eqb i j then Some r' else nth_error (g_ranks s) j).
    { intro j. unfold upd_rank. rewrite nth_error_upd. destruct (Nat.ltb_spec i (length (g_ranks s))); [|lia].
      rewrite andb_true_r. reflexivity. }
    assert (C : forall c, chan_of (Gst (upd_rank s i r') (apply_post (g_chans s) p)) c = post_on p c (chan_of s c)).
    { intro c. unfold chan_of. cbn. apply cget_post. }
    split.
    + intros j rj E. cbn in E. rewrite N in E. destruct (Nat.eqb_spec i j).
      * inversion E; subst. eapply rank_step_rinv; eauto. eapply iv_r; eauto.
      * eapply iv_r; eauto.
    + intros c k e. rewrite C. cbn [g_ranks].
      assert (OLD : nth_error (c_snd (chan_of s c)) k = Some e -> 
        exists r0, nth_error (upd_rank s i r') (ch_src c) = Some r0 /\ s_req e < length (r_act r0) /\
         (pend I e (chan_of s c) k -> nth_error (r_act r0) (s_req e) = Some (Some (Areq (s_buf e) (s_cnt e) true c k false)))).
      { intro E. destruct (iv_snd Hinv c k E) as (r0 & E0 & L0 & A0). rewrite N.
        destruct (Nat.eqb_spec i (ch_src c)) as [Ei|].
        - rewrite <- Ei, Er in E0. inversion E0; subst r0. exists r'. split; auto. split.
          + apply rank_step_len in St. lia.
          + intro Q. apply A0 in Q. eapply rank_step_act; eauto.
        - exists r0. auto. }
      destruct p as [|c' e' d'|c' e']; cbn [post_on]; auto.
      * destruct (chan_dec c' c) as [->|Nc]; auto. cbn [c_snd]. intro E.
        apply nth_error_snoc in E as [[L E]|[-> ->]].
        -- destruct (OLD E) as (r0 & A1 & A2 & A3). exists r0. auto.
        -- destruct PO as (P1 & P2 & P3 & P4 & P5). rewrite P1, N, Nat.eqb_refl. exists r'. split; auto.
           split; [|intros _; exact P5]. apply nth_error_Some. congruence.
      * destruct (chan_dec c' c) as [->|Nc]; auto.
    + intros c k e. rewrite C. cbn [g_ranks].
      assert (OLD : nth_error (c_rcv (chan_of s c)) k = Some e -> 
        exists r0, nth_error (upd_rank s i r') (ch_dst c) = Some r0 /\
         (c_del (chan_of s c) <= k -> nth_error (r_act r0) (q_req e) = Some (Some (Areq (q_buf e) (q_cnt e) false c k false)))).
      { intro E. destruct (iv_rcv Hinv c k E) as (r0 & E0 & A0). rewrite N.
        destruct (Nat.eqb_spec i (ch_dst c)) as [Ei|].
        - rewrite <- Ei, Er in E0. inversion E0; subst r0. exists r'. split; auto.
          intro Q. apply A0 in Q. eapply rank_step_act; eauto.
        - exists r0. auto. }
      destruct p as [|c' e' d'|c' e']; cbn [post_on]; auto.
      * destruct (chan_dec c' c) as [->|Nc]; auto.
      * destruct (chan_dec c' c) as [->|Nc]; auto. cbn [c_rcv]. intro E.
        apply nth_error_snoc in E as [[L E]|[-> ->]].
        -- destruct (OLD E) as (r0 & A1 & A3). exists r0. auto.
        -- destruct PO as (P1 & P5). rewrite P1, N, Nat.eqb_refl. exists r'. split; auto.
    + intro c. rewrite C. destruct (iv_del Hinv c). destruct p as [|c' e' d'|c' e']; cbn [post_on]; auto;
        destruct (chan_dec c' c); cbn [c_snd c_rcv c_del]; rewrite ?app_length; auto; lia.
  - apply xmit_inv in H as (e & r & E & Er & D & -> & o & O & PW & CH).
    destruct s' as [l' m']. cbn in PW, CH. subst m'.
    destruct (iv_snd Hinv c k E) as (r0 & E0 & L0 & A0). rewrite Er in E0. inversion E0; subst r0. clear E0.
    assert (A := A0 (or_introl D)). clear A0.
    split.
    + intros j rj Ej. cbn in Ej. rewrite (PW j) in Ej. destruct (nth_error (g_ranks s) j) as [r1|] eqn:E1; inversion Ej.
      apply rinv_xf. eapply iv_r; eauto.
    + intros c' k' e'. rewrite chan_of_cset. cbn [g_ranks].
      assert (OLD : (c, k) <> (c', k') -> nth_error (c_snd (chan_of s c')) k' = Some e' ->
        exists r0, nth_error l' (ch_src c') = Some r0 /\ s_req e' < length (r_act r0) /\
         (pend I e' (chan_of s c') k' -> nth_error (r_act r0) (s_req e') = Some (Some (Areq (s_buf e') (s_cnt e') true c' k' false)))).
      { intros NE E'. destruct (iv_snd Hinv c' k' E') as (r0 & E0 & L1 & A0).
        exists (xf c e (ch_src c') r0). rewrite (PW (ch_src c')), E0. split; auto. rewrite xf_len. split; auto.
        intro Q. apply A0 in Q. rewrite xf_act; auto. intros _ S F. rewrite F in Q. rewrite S in E0.
        rewrite Er in E0. inversion E0; subst r0. congruence. }
      destruct (chan_dec c c') as [<-|Nc].
      * cbn [c_snd c_del]. rewrite nth_error_upd. destruct (Nat.eqb_spec k k') as [<-|Nk]; cbn [andb].
        -- assert (Lk : k < length (c_snd (chan_of s c))) by (apply nth_error_Some; congruence).
           destruct (Nat.ltb_spec k (length (c_snd (chan_of s c)))); [|lia]. intro X. inversion X; subst e'. cbn.
           exists (xf c e (ch_src c) r). rewrite (PW (ch_src c)), Er. split; auto. rewrite xf_len. split; auto.
           intros [Q|[Q _]]; [discriminate|]. cbn in Q. rewrite xf_act; auto. congruence.
        -- intro X. destruct (OLD ltac:(congruence) X) as (r0 & B1 & B2 & B3). exists r0. auto.
      * intro X. apply OLD; auto. congruence.
    + intros c' k' p'. rewrite chan_of_cset. cbn [g_ranks].
      assert (OLD : nth_error (c_rcv (chan_of s c')) k' = Some p' ->
        exists r0, nth_error l' (ch_dst c') = Some r0 /\
         (c_del (chan_of s c') <= k' -> nth_error (r_act r0) (q_req p') = Some (Some (Areq (q_buf p') (q_cnt p') false c' k' false)))).
      { intros E'. destruct (iv_rcv Hinv c' k' E') as (r0 & E0 & A0).
        exists (xf c e (ch_dst c') r0). rewrite (PW (ch_dst c')), E0. split; auto.
        intro Q. apply A0 in Q. rewrite xf_act; auto. intros _ S F. rewrite F in Q. rewrite S in E0.
        rewrite Er in E0. inversion E0; subst r0. congruence. }
      destruct (chan_dec c c') as [<-|Nc]; cbn [c_rcv c_del]; auto.
    + intro c'. rewrite chan_of_cset. destruct (chan_dec c c') as [<-|Nc]; cbn; [|apply (iv_del Hinv c')].
      rewrite upd_length. apply (iv_del Hinv c).
  - apply match_inv in H as (e & p & d & E & Ep & D & -> & FT & PW & CH).
    destruct s' as [l' m']. cbn in PW, CH. subst m'.
    destruct (iv_snd Hinv c _ E) as (rs & Es & Ls & As).
    destruct (iv_rcv Hinv c _ Ep) as (rd & Ed & Ad). assert (Ad' := Ad (le_n _)). clear Ad.
    apply andb_true_iff in FT as [_ FT]. apply Nat.leb_le in FT.
    split.
    + intros j rj Ej. cbn in Ej. rewrite (PW j) in Ej. destruct (nth_error (g_ranks s) j) as [r1|] eqn:E1; inversion Ej.
      apply rinv_mf; [eapply iv_r; eauto|]. intros ->. rewrite Ed in E1. inversion E1; subst r1.
      destruct (iv_r Hinv _ Ed) as [R1 _]. destruct (R1 _ _ Ad') as (o & O & L). cbn in O, L. exists o. split; auto. lia.
    + intros c' k' e'. rewrite chan_of_cset. cbn [g_ranks].
      assert (OLD : forall x : cst V, (pend I e' x k' -> pend I e' (chan_of s c') k' /\ ~ (c = c' /\ k' = c_del (chan_of s c))) ->
        nth_error (c_snd (chan_of s c')) k' = Some e' ->
        exists r0, nth_error l' (ch_src c') = Some r0 /\ s_req e' < length (r_act r0) /\
         (pend I e' x k' -> nth_error (r_act r0) (s_req e') = Some (Some (Areq (s_buf e') (s_cnt e') true c' k' false)))).
      { intros x NE E'. destruct (iv_snd Hinv c' k' E') as (r0 & E0 & L1 & A0).
        exists (mf c e p d (ch_src c') r0). rewrite (PW (ch_src c')), E0. split; auto. rewrite mf_len. split; auto.
        intro Q. apply NE in Q as [Q NQ]. apply A0 in Q. rewrite mf_act; auto.
        - intros S F. rewrite F in Q. rewrite S in E0. rewrite Ed in E0. inversion E0; subst r0. congruence.
        - intros EA S F. rewrite F in Q. rewrite S in E0. rewrite Es in E0. inversion E0; subst r0.
          rewrite As in Q by (right; split; auto). inversion Q. apply NQ; split; congruence. }
      destruct (chan_dec c c') as [<-|Nc].
      * cbn [c_snd]. intro X. apply OLD; auto. intros [Q|[Q1 Q2]].
        -- split; [left; exact Q|]. intros [_ ->]. rewrite E in X. inversion X; subst. congruence.
        -- cbn in Q2. split; [right; split; auto; lia|]. intros [_ ->]. lia.
      * intro X. apply (OLD (chan_of s c')); auto. intro Q. split; auto. intros [F _]. congruence.
    + intros c' k' p'. rewrite chan_of_cset. cbn [g_ranks].
      assert (OLD : ~ (c = c' /\ k' = c_del (chan_of s c)) -> nth_error (c_rcv (chan_of s c')) k' = Some p' ->
        exists r0, nth_error l' (ch_dst c') = Some r0 /\
         (c_del (chan_of s c') <= k' -> nth_error (r_act r0) (q_req p') = Some (Some (Areq (q_buf p') (q_cnt p') false c' k' false)))).
      { intros NE E'. destruct (iv_rcv Hinv c' k' E') as (r0 & E0 & A0).
        exists (mf c e p d (ch_dst c') r0). rewrite (PW (ch_dst c')), E0. split; auto.
        intro Q. apply A0 in Q. rewrite mf_act; auto.
        - intros S F. rewrite F in Q. rewrite S in E0. rewrite Ed in E0. inversion E0; subst r0.
          rewrite Ad' in Q. inversion Q. apply NE; split; congruence.
        - intros EA S F. rewrite F in Q. rewrite S in E0. rewrite Es in E0. inversion E0; subst r0.
          rewrite As in Q by (right; split; auto). inversion Q. }
      destruct (chan_dec c c') as [<-|Nc]; cbn [c_rcv c_del].
      * intro X. destruct (Nat.eq_dec k' (c_del (chan_of s c))) as [->|Nk].
        -- exists (mf c e p d (ch_dst c) rd). rewrite (PW (ch_dst c)), Ed. split; auto. lia.
        -- destruct (OLD ltac:(intuition) X) as (r0 & B1 & B2). exists r0. split; auto. intro. apply B2. lia.
      * intro X. apply OLD; auto. intros [F _]. congruence.
    + intro c'. rewrite chan_of_cset. destruct (chan_dec c c') as [<-|Nc]; cbn; [|apply (iv_del Hinv c')].
      split; [apply (proj1 (nth_error_Some (c_snd (chan_of s c)) (c_del (chan_of s c)))); congruence|].
      apply (proj1 (nth_error_Some (c_rcv (chan_of s c)) (c_del (chan_of s c)))). congruence.
  - cbn [gstep] in H. destruct (coll_step I (g_ranks s)) as [[m|]|] eqn:CS; inversion H; subst. clear H.
    apply coll_step_inv in CS as [LEN CS].
    assert (BK : forall i r', nth_error m i = Some r' -> exists r, nth_error (g_ranks s) i = Some r).
    { intros i r' E. assert (L : i < length m) by (apply nth_error_Some; congruence). rewrite LEN in L.
      apply nth_error_Some in L. destruct (nth_error (g_ranks s) i) as [r|]; [eauto|congruence]. }
    split.
    + intros i r' E. cbn in E. destruct (BK i r' E) as (r & Er). destruct (CS i r Er) as (_ & out & d & OK & E2).
      rewrite E in E2. inversion E2; subst r'. destruct (iv_r Hinv _ Er) as [A B]. split; rewrite coll_after_act; auto.
      intros q x X. rewrite (coll_after_obj r out d q OK X). exact (A _ _ X).
    + intros c k e E. destruct (iv_snd Hinv c k E) as (r0 & E0 & L0 & A0).
      destruct (CS _ _ E0) as (_ & out & d & OK & E2). eexists. split; [exact E2|]. rewrite coll_after_act. split; [exact L0|exact A0].
    + intros c k e E. destruct (iv_rcv Hinv c k E) as (r0 & E0 & A0).
      destruct (CS _ _ E0) as (_ & out & d & OK & E2). eexists. split; [exact E2|]. rewrite coll_after_act. exact A0.
    + intro c. apply (iv_del Hinv c).
Qed.

Lemma inv_start P m p : inv (start P m p).
Proof.
  assert (C : forall c, chan_of (start P m p) c = c0 V) by (intro; apply cget_empty).
  split.
  - intros i r E. cbn in E.
    assert (X : exists j, r = rank0 P j (m j) (p j)).
    { apply nth_error_In in E. apply in_map_iff in E as (j & <- & _). eauto. }
    destruct X as (j & ->). split; cbn; intros q; destruct q; discriminate.
  - intros c k e. rewrite C. destruct k; discriminate.
  - intros c k e. rewrite C. destruct k; discriminate.
  - intro c. rewrite C. cbn. auto.
Qed.
End Diamond.
