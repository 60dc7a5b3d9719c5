(** * MpiProof5: the outcome of a program does not depend on the schedule; messages are neither lost,
      duplicated, reordered nor altered. *)
From Coq Require Import List Arith Bool Lia.
From Verif Require Import Base MpiMap MpiModel MpiProof MpiProof2 MpiProof3 MpiProof4.
Import ListNotations.
Set Implicit Arguments.

Lemma firstn_S_snoc {A} (l : list A) k (d : A) : nth_error l k = Some d -> firstn (S k) l = firstn k l ++ [d].
Proof.
  revert k. induction l as [|x l IH]; intros [|k] H; try discriminate.
  - cbn in H. inversion H; subst. reflexivity.
  - cbn [firstn app]. f_equal. apply (IH k). exact H.
Qed.

Section Outcome.
Variable V : Type.
Variable I : impl V.
Notation rst := (rst V).
Notation gst := (gst V).
Notation inv := (inv I).
Notation gstep := (gstep I).
Notation exec := (exec I).

(** the states a program can be in *)
Definition reachable (s : gst) : Prop :=
  exists P m p tr, exec (Some (start P m p)) tr (Some s).

(** [o] is how the program can end from [s]: None is an error, Some n a state in which no agent can act *)
Definition outcome (s : gst) (o : option gst) : Prop := (exists tr, exec (Some s) tr o) /\ final I o.

Inductive execn : nat -> option gst -> option gst -> Prop :=
| en_nil s : execn 0 s s
| en_cons n s l e s1 s2 : gstep s l = Some (e, s1) -> execn n s1 s2 -> execn (S n) (Some s) s2.

Lemma exec_execn a tr b : exec a tr b -> exists n, execn n a b.
Proof.
  induction 1 as [|s l e s1 tr s2 H E [n IH]].
  - exists 0. constructor.
  - exists (S n). econstructor; eauto.
Qed.
Lemma execn_exec n a b : execn n a b -> exists tr, exec a tr b.
Proof.
  induction 1 as [|n s l e s1 s2 H E [tr IH]].
  - exists []. constructor.
  - exists (e ++ tr). econstructor; eauto.
Qed.

Lemma exec_app a t1 b t2 c : exec a t1 b -> exec b t2 c -> exec a (t1 ++ t2) c.
Proof.
  induction 1 as [|s l e s1 tr s2 H E IH]; intro X; cbn; auto. rewrite <- app_assoc. econstructor; eauto.
Qed.

Lemma inv_exec a tr b : exec a tr b -> forall s s', a = Some s -> b = Some s' -> inv s -> inv s'.
Proof.
  induction 1 as [x|s l e s1 tr s2 H E IH]; intros s0 s' Ea Eb Hi.
  - congruence.
  - inversion Ea; subst s0. destruct s1 as [s1|].
    + apply (IH s1 s'); auto. eapply inv_step; eauto.
    + inversion E; subst; discriminate.
Qed.

Lemma reachable_inv s : reachable s -> inv s.
Proof. intros (P & m & p & tr & H). eapply inv_exec; eauto. apply inv_start. Qed.

Lemma reachable_exec s tr s' : reachable s -> exec (Some s) tr (Some s') -> reachable s'.
Proof. intros (P & m & p & t & H) E. exists P, m, p. eexists. eapply exec_app; eauto. Qed.

(** if some schedule ends normally, every step can be completed to the same end *)
Lemma normal_step k : forall s n l e t, inv s -> execn k (Some s) (Some n) -> final I (Some n) ->
  gstep s l = Some (e, t) -> exists k' s', k = S k' /\ t = Some s' /\ execn k' (Some s') (Some n).
Proof.
  induction k as [|k IH]; intros s n l e t Hi R F H.
  - inversion R; subst. rewrite F in H. discriminate.
  - inversion R as [|k0 s0 l0 e0 s1 s2 H0 R0]; subst.
    assert (DEC : l0 = l \/ l0 <> l).
    { assert (D : {l0 = l} + {l0 <> l}); [|destruct D; auto]. decide equality; try apply Nat.eq_dec; apply chan_dec. }
    destruct DEC as [->|N].
    + rewrite H0 in H. inversion H; subst. destruct t as [t|]; [|inversion R0]. eauto.
    + destruct s1 as [s1|]; [|inversion R0]. assert (Hi1 : inv s1) by (eapply inv_step; eauto).
      destruct t as [t|].
      * destruct (diamond Hi N H0 H) as (u & A & B).
        destruct (IH s1 n l e (Some u) Hi1 R0 F B) as (k' & s' & -> & X & R1). inversion X; subst s'.
        exists (S k'), t. split; auto. split; auto. econstructor; eauto.
      * assert (B := @err_stable V I s l l0 e e0 s1 Hi (not_eq_sym N) H H0).
        destruct (IH s1 n l [] None Hi1 R0 F B) as (k' & s' & _ & X & _). discriminate.
Qed.

Lemma normal_execn k : forall s n j t, inv s -> execn k (Some s) (Some n) -> final I (Some n) ->
  execn j (Some s) t -> exists k' s', k = j + k' /\ t = Some s' /\ execn k' (Some s') (Some n).
Proof.
  intros s n j t Hi R F J. revert k Hi R. remember (Some s) as a eqn:Ea. revert s Ea.
  induction J as [x|j s0 l e s1 s2 H J IH]; intros s Ea k Hi R; inversion Ea; subst.
  - exists k, s. auto.
  - destruct (@normal_step k s n l e s1 Hi R F H) as (k' & s' & -> & -> & R1).
    destruct (IH s' eq_refl k' (@inv_step V I s l e s' Hi H) R1) as (k2 & s3 & -> & -> & R2). exists k2, s3. auto.
Qed.

(** the error state is reached whatever else happens first *)
Lemma err_step k : forall s l e s', inv s -> execn k (Some s) None -> gstep s l = Some (e, Some s') ->
  exists k', execn k' (Some s') None.
Proof.
  induction k as [|k IH]; intros s l e s' Hi R H; inversion R as [|k0 s0 l0 e0 s1 s2 H0 R0]; subst.
  assert (DEC : l0 = l \/ l0 <> l).
  { assert (D : {l0 = l} + {l0 <> l}); [|destruct D; auto]. decide equality; try apply Nat.eq_dec; apply chan_dec. }
  destruct DEC as [->|N].
  - rewrite H0 in H. inversion H; subst. eauto.
  - destruct s1 as [s1|].
    + destruct (diamond Hi N H0 H) as (u & A & B). assert (Hi1 : inv s1) by (eapply inv_step; eauto).
      destruct (IH s1 l e u Hi1 R0 B) as (k' & R1). exists (S k'). econstructor; eauto.
    + exists 1. econstructor; [|constructor]. eapply err_stable; eauto.
Qed.

Lemma err_exec s tr s' : inv s -> exec (Some s) tr (Some s') -> (exists t, exec (Some s) t None) ->
  exists t, exec (Some s') t None.
Proof.
  intros Hi E [t X]. apply exec_execn in X as [k X]. remember (Some s) as a eqn:Ea. remember (Some s') as b eqn:Eb.
  revert s s' Ea Eb Hi k X.
  induction E as [x|s0 l e s1 tr s2 H E IH]; intros s s' Ea Eb Hi k X; subst.
  - inversion Eb; subst. eapply execn_exec; eauto.
  - inversion Ea; subst. destruct s1 as [s1|]; [|inversion E].
    destruct (@err_step k s l e s1 Hi X H) as (k' & X'). eapply IH; eauto. eapply inv_step; eauto.
Qed.

(** what has happened so far does not change how the program can end *)
Lemma outcome_stable s tr s' o : inv s -> exec (Some s) tr (Some s') -> outcome s o <-> outcome s' o.
Proof.
  intros Hi E. split.
  - intros [[t X] F]. split; auto. destruct o as [n|].
    + apply exec_execn in X as [k X]. apply exec_execn in E as [j E].
      destruct (@normal_execn k s n j (Some s') Hi X F E) as (k' & s2 & _ & Y & R). inversion Y; subst s2. eapply execn_exec; eauto.
    + eapply err_exec; eauto.
  - intros [[t X] F]. split; auto. exists (tr ++ t). eapply exec_app; eauto.
Qed.

Lemma final_outcome o o' t : final I o -> exec o t o' -> o' = o.
Proof. intros F X. inversion X; subst; auto. cbn in F. rewrite F in H. discriminate. Qed.

(** the outcome is unique, and no schedule runs for ever once one schedule ends normally *)
Theorem outcome_unique s o o' : inv s -> outcome s o -> outcome s o' -> o = o'.
Proof.
  intros Hi O O'. assert (O0 := O). destruct O as [[t X] F]. destruct o as [n|].
  - apply (@outcome_stable s t n o' Hi X) in O'. destruct O' as [[t' X'] F']. symmetry. eapply final_outcome; eauto.
  - destruct o' as [n|]; auto. assert (O1 := O'). destruct O' as [[t' X'] F'].
    apply (@outcome_stable s t' n None Hi X') in O0. destruct O0 as [[t2 X2] _]. symmetry. symmetry. eapply final_outcome; eauto.
Qed.

Lemma normal_bound s n : inv s -> outcome s (Some n) ->
  exists B, forall j t, execn j (Some s) t -> j <= B /\ exists s', t = Some s' /\ outcome s' (Some n).
Proof.
  intros Hi [[tr X] F]. apply exec_execn in X as [k X]. exists k. intros j t J.
  destruct (@normal_execn k s n j t Hi X F J) as (k' & s' & -> & -> & R). split; [lia|]. exists s'. split; auto.
  split; auto. eapply execn_exec; eauto.
Qed.

(** ** Messages *)

Definition sent_on (c : chan) (tr : list (event V)) : list (list V) :=
  flat_map (fun e => match e with EvSend c' d => if chan_dec c' c then [d] else [] | _ => [] end) tr.
Definition received_on (c : chan) (tr : list (event V)) : list (list V) :=
  flat_map (fun e => match e with EvRecv c' _ d => if chan_dec c' c then [d] else [] | _ => [] end) tr.

Record fifo (s : gst) (tr : list (event V)) : Prop := {
  ff_inv : inv s;
  ff_len : forall c, length (sent_on c tr) = length (c_snd (chan_of s c));
  ff_dat : forall c k e, nth_error (c_snd (chan_of s c)) k = Some e ->
    match s_dat e with
    | Some d => nth_error (sent_on c tr) k = Some d
    | None => exists r o, nth_error (g_ranks s) (ch_src c) = Some r /\ objat (r_mem r) (s_buf e) = Some o /\
                nth_error (sent_on c tr) k = Some (firstn (s_cnt e) (o_dat o))
    end;
  ff_rcv : forall c, received_on c tr = firstn (c_del (chan_of s c)) (sent_on c tr)
}.

Lemma sent_on_app c t1 t2 : sent_on c (t1 ++ t2) = sent_on c t1 ++ sent_on c t2.
Proof. unfold sent_on. apply flat_map_app. Qed.
Lemma received_on_app c t1 t2 : received_on c (t1 ++ t2) = received_on c t1 ++ received_on c t2.
Proof. unfold received_on. apply flat_map_app. Qed.

Lemma nth_error_app_l {A} (l k : list A) i x : nth_error l i = Some x -> nth_error (l ++ k) i = Some x.
Proof. intro H. rewrite nth_error_app1; auto. apply nth_error_Some. congruence. Qed.

Lemma fifo_step s tr l e s' : fifo s tr -> gstep s l = Some (e, Some s') -> fifo s' (tr ++ e).
Proof.
  intros Hf H. assert (Hi := ff_inv Hf). assert (Hi' : inv s') by (eapply inv_step; eauto).
  destruct l as [i|c k|c|].
  - apply rank_inv in H as (r & Er & r' & p & St & -> & ->).
    assert (PO := rank_step_post _ _ _ _ _ St).
    assert (Li : i < length (g_ranks s)) by (apply nth_error_Some; congruence).
    assert (OBJ : forall c k x, nth_error (c_snd (chan_of s c)) k = Some x -> s_dat x = None ->
      forall r0 o, nth_error (g_ranks s) (ch_src c) = Some r0 -> objat (r_mem r0) (s_buf x) = Some o ->
      exists r1, nth_error (upd (g_ranks s) i r') (ch_src c) = Some r1 /\ objat (r_mem r1) (s_buf x) = Some o).
    { intros c k x E D r0 o E0 O. rewrite nth_error_upd. destruct (Nat.eqb_spec i (ch_src c)) as [Ei|N].
      - destruct (Nat.ltb_spec i (length (g_ranks s))); [|lia]. cbn [andb]. exists r'. split; auto.
        rewrite <- Ei, Er in E0. inversion E0; subst r0.
        destruct (iv_snd Hi c k E) as (r2 & E2 & _ & A). rewrite <- Ei, Er in E2. inversion E2; subst r2.
        rewrite <- O. exact (rank_step_obj _ _ _ _ _ St (A (or_introl D)) (iv_r Hi _ Er)).
      - cbn [andb]. eauto. }
    assert (RC : forall c, received_on c (tr ++ post_event p) = received_on c tr).
    { intro c. rewrite received_on_app. destruct p; cbn; rewrite ?app_nil_r; auto. }
    split; auto.
    + intro c. rewrite chan_of_post, sent_on_app, app_length, (ff_len Hf c).
      change (cget (c0 V) (g_chans s) c) with (chan_of s c).
      destruct p as [|c1 x1 d1|c1 x1]; cbn.
      * lia.
      * destruct (chan_dec c1 c); cbn; rewrite ?app_length; cbn; lia.
      * destruct (chan_dec c1 c); cbn; lia.
    + intros c k x E. rewrite chan_of_post in E. change (cget (c0 V) (g_chans s) c) with (chan_of s c) in E.
      rewrite sent_on_app. cbn [g_ranks].
      assert (OLD : nth_error (c_snd (chan_of s c)) k = Some x ->
        match s_dat x with
        | Some d => nth_error (sent_on c tr ++ sent_on c (post_event p)) k = Some d
        | None => exists r0 o, nth_error (upd (g_ranks s) i r') (ch_src c) = Some r0 /\ objat (r_mem r0) (s_buf x) = Some o /\
                nth_error (sent_on c tr ++ sent_on c (post_event p)) k = Some (firstn (s_cnt x) (o_dat o))
        end).
      { intro E0. assert (DD := ff_dat Hf c k E0). destruct (s_dat x) eqn:D.
        - apply nth_error_app_l; auto.
        - destruct DD as (r0 & o & E1 & O & X). destruct (OBJ _ _ _ E0 D _ _ E1 O) as (r1 & E2 & O2).
          exists r1, o. split; auto. split; auto. apply nth_error_app_l; auto. }
      destruct p as [|c1 x1 d1|c1 x1]; cbn [post_on] in E; [exact (OLD E)| |].
      * destruct (chan_dec c1 c) as [->|]; [|exact (OLD E)]. cbn [c_snd] in E.
        apply nth_error_snoc in E as [[L E]|[-> ->]]; [exact (OLD E)|].
        destruct PO as (P1 & P2 & P3 & (o & O & ->) & P5). rewrite P2. exists r', o. rewrite P1.
        split; [|split].
        -- rewrite nth_error_upd, Nat.eqb_refl. destruct (Nat.ltb_spec i (length (g_ranks s))); [reflexivity|lia].
        -- rewrite <- O. clear -St. unfold rank_step in St. 
           destruct (r_prog r); try discriminate;
             repeat match type of St with context [match ?x with _ => _ end] => destruct x; try discriminate end;
             inversion St; subst; reflexivity.
        -- rewrite <- (ff_len Hf c). cbn. destruct (chan_dec c c); [|congruence].
           rewrite nth_error_app2 by lia. rewrite Nat.sub_diag. reflexivity.
      * destruct (chan_dec c1 c) as [->|]; exact (OLD E).
    + intro c. rewrite RC, (ff_rcv Hf c), chan_of_post, post_on_del, sent_on_app.
      change (cget (c0 V) (g_chans s) c) with (chan_of s c).
      rewrite firstn_app. rewrite (ff_len Hf c).
      replace (c_del (chan_of s c) - length (c_snd (chan_of s c))) with 0 by (destruct (iv_del Hi c); lia).
      cbn. rewrite app_nil_r. reflexivity.
  - apply xmit_inv in H as (e0 & ra & E & Ea & D & -> & o & O & PW & CH). rewrite app_nil_r.
    destruct s' as [l' m']. cbn in PW, CH. subst m'. split; auto.
    + intro c'. rewrite chan_of_cset, (ff_len Hf c'). destruct (chan_dec c c') as [->|]; cbn; rewrite ?upd_length; auto.
    + intros c' k' x X. rewrite chan_of_cset in X. cbn [g_ranks].
      assert (OLD : nth_error (c_snd (chan_of s c')) k' = Some x ->
        match s_dat x with
        | Some d => nth_error (sent_on c' tr) k' = Some d
        | None => exists r0 o, nth_error l' (ch_src c') = Some r0 /\ objat (r_mem r0) (s_buf x) = Some o /\
                nth_error (sent_on c' tr) k' = Some (firstn (s_cnt x) (o_dat o))
        end).
      { intro E0. assert (DD := ff_dat Hf c' k' E0). destruct (s_dat x) eqn:Dx; auto.
        destruct DD as (r0 & o0 & E1 & O1 & Q). exists (xf I c e0 (ch_src c') r0), o0.
        rewrite (PW (ch_src c')), E1, xf_mem. auto. }
      destruct (chan_dec c c') as [->|]; [|exact (OLD X)]. cbn [c_snd] in X. rewrite nth_error_upd in X.
      destruct (Nat.eqb_spec k k') as [->|]; cbn [andb] in X; [|exact (OLD X)].
      assert (Lk : k' < length (c_snd (chan_of s c'))) by (apply nth_error_Some; congruence).
      destruct (Nat.ltb_spec k' (length (c_snd (chan_of s c')))); [|lia]. inversion X; subst x. cbn [s_dat].
      assert (DD := ff_dat Hf c' k' E). rewrite D in DD. destruct DD as (r0 & o0 & E1 & O1 & Q).
      rewrite Ea in E1. inversion E1; subst r0. congruence.
    + intro c'. rewrite chan_of_cset, (ff_rcv Hf c'). destruct (chan_dec c c') as [->|]; auto.
  - apply match_inv in H as (e0 & p & d & E & Ep & D & -> & FT & PW & CH).
    destruct s' as [l' m']. cbn in PW, CH. subst m'.
    assert (SN : forall c', sent_on c' (tr ++ [EvRecv c (q_buf p) d]) = sent_on c' tr).
    { intro c'. rewrite sent_on_app. cbn. apply app_nil_r. }
    split; auto.
    + intro c'. rewrite SN, chan_of_cset, (ff_len Hf c'). destruct (chan_dec c c') as [->|]; auto.
    + intros c' k' x X. rewrite chan_of_cset in X. rewrite SN. cbn [g_ranks].
      assert (X' : nth_error (c_snd (chan_of s c')) k' = Some x).
      { destruct (chan_dec c c') as [->|]; auto. }
      clear X. assert (DD := ff_dat Hf c' k' X'). destruct (s_dat x) eqn:Dx; auto.
      destruct DD as (r0 & o0 & E1 & O1 & Q). exists (mf I c e0 p d (ch_src c') r0), o0.
      rewrite (PW (ch_src c')), E1, mf_mem. split; auto. split; auto.
      destruct (Nat.eqb_spec (ch_src c') (ch_dst c)) as [S|]; auto.
      rewrite objat_deliver_ne; auto. exact (@sep_send_recv V I s c' k' x c p r0 Hi X' Dx Ep E1 S).
    + intro c'. rewrite SN, chan_of_cset, received_on_app, (ff_rcv Hf c'). cbn.
      destruct (chan_dec c c') as [->|]; cbn.
      * symmetry. apply firstn_S_snoc. assert (DD := ff_dat Hf c' _ E). rewrite D in DD. exact DD.
      * apply app_nil_r.
  - apply coll_inv in H as (-> & CS & CC). rewrite app_nil_r.
    assert (CO : forall c, chan_of s' c = chan_of s c) by (intro; unfold chan_of; rewrite CC; reflexivity).
    destruct (coll_step_inv I _ CS) as [_ ST].
    split; auto.
    + intro c. rewrite CO. apply (ff_len Hf).
    + intros c k x X. rewrite CO in X. assert (DD := ff_dat Hf c k X). destruct (s_dat x) eqn:Dx; auto.
      destruct DD as (r0 & o0 & E1 & O1 & Q). destruct (ST _ _ E1) as (_ & out & dd & OK & N1).
      exists (coll_after r0 out dd), o0. split; auto. split; auto.
      destruct (iv_snd Hi c k X) as (r2 & E2 & _ & A). rewrite E1 in E2. inversion E2; subst r2.
      rewrite <- O1. exact (coll_after_obj r0 out dd _ OK (A (or_introl Dx))).
    + intro c. rewrite CO. apply (ff_rcv Hf).
Qed.

Lemma fifo_start P m p : fifo (start P m p) [].
Proof.
  assert (C : forall c, chan_of (start P m p) c = c0 V) by (intro; apply cget_empty).
  split.
  - apply inv_start.
  - intro c. rewrite C. reflexivity.
  - intros c k e. rewrite C. destruct k; discriminate.
  - intro c. rewrite C. reflexivity.
Qed.

Lemma fifo_exec a tr b : exec a tr b -> forall s s' t0, a = Some s -> b = Some s' -> fifo s t0 -> fifo s' (t0 ++ tr).
Proof.
  induction 1 as [x|s l e s1 tr s2 H E IH]; intros s0 s' t0 Ea Eb F.
  - rewrite app_nil_r. congruence.
  - inversion Ea; subst s0. destruct s1 as [s1|].
    + rewrite app_assoc. apply (IH s1 s'); auto. eapply fifo_step; eauto.
    + inversion E; subst; discriminate.
Qed.

(** messages received on a channel are, in order, the first messages sent on it *)
Theorem messages_in_order P m p tr s c : exec (Some (start P m p)) tr (Some s) ->
  exists rest, sent_on c tr = received_on c tr ++ rest.
Proof.
  intro E. assert (F := fifo_exec E eq_refl eq_refl (fifo_start P m p)). cbn in F.
  exists (skipn (c_del (chan_of s c)) (sent_on c tr)). rewrite (ff_rcv F c). symmetry. apply firstn_skipn.
Qed.
End Outcome.
