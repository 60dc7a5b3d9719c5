(** * MpiProof13: when every rank has returned and no message is under way, the program has ended. *)
From Coq Require Import List Arith Bool Lia.
From Verif Require Import Base MpiMap MpiModel MpiProof MpiProof2 MpiProof3 MpiProof4 MpiProof5 MpiSpec MpiProof6 MpiProof7 MpiProof11.
Import ListNotations.
Set Implicit Arguments.

Section Ends.
Variable V : Type.
Variable I : impl V.
Notation rst := (rst V).
Notation gst := (gst V).
Notation gstep := (gstep I).
Notation exec := (exec I).

(** the data of a matched message has been read *)
Definition dinv (s : gst) : Prop := forall c k e, nth_error (c_snd (chan_of s c)) k = Some e ->
  k < c_del (chan_of s c) -> s_dat e <> None.

Lemma dinv_step s l ev s' : inv I s -> dinv s -> gstep s l = Some (ev, Some s') -> dinv s'.
Proof.
  intros Hi D H. destruct l as [i|c k|c|].
  - apply rank_inv in H as (r & Er & r' & p & St & -> & X). inversion X; subst.
    intros c k e E L. rewrite chan_of_post in E, L. rewrite post_on_del in L.
    change (cget (c0 V) (g_chans s) c) with (chan_of s c) in *.
    apply (D c k e); auto.
    destruct (iv_del Hi c) as [B _]. destruct p as [|c1 e1 d1|c1 e1]; cbn [post_on] in E; auto;
      destruct (chan_dec c1 c); auto. cbn [c_snd] in E. rewrite nth_error_app1 in E by lia. exact E.
  - apply xmit_inv in H as (e0 & ra & E & Ea & Dn & -> & o & O & PW & CH).
    intros c' k' e' E' L'. destruct s' as [l' m']. cbn in CH. subst m'. rewrite chan_of_cset in E', L'.
    change (cget (c0 V) (g_chans s) c') with (chan_of s c') in *.
    destruct (chan_dec c c') as [<-|]; [|exact (D _ _ _ E' L')]. cbn [c_snd c_del] in E', L'.
    rewrite nth_error_upd in E'. destruct (Nat.eqb_spec k k') as [<-|]; cbn [andb] in E'; [|exact (D _ _ _ E' L')].
    destruct (k <? length (c_snd (chan_of s c))); [inversion E'; discriminate|exact (D _ _ _ E' L')].
  - apply match_inv in H as (e0 & p & d & E & Ep & Dn & -> & FT & PW & CH).
    intros c' k' e' E' L'. destruct s' as [l' m']. cbn in CH. subst m'. rewrite chan_of_cset in E', L'.
    change (cget (c0 V) (g_chans s) c') with (chan_of s c') in *.
    destruct (chan_dec c c') as [<-|]; [|exact (D _ _ _ E' L')]. cbn [c_snd c_del] in E', L'.
    destruct (Nat.eq_dec k' (c_del (chan_of s c))) as [->|]; [congruence|]. apply (D c k' e'); auto. lia.
  - cbn in H. destruct (coll_step I (g_ranks s)) as [[rs|]|]; inversion H; subst. exact D.
Qed.

Lemma dinv_reachable s : reachable I s -> dinv s.
Proof.
  intros (P & m & p & tr & X).
  assert (G : forall a tr b, exec a tr b -> forall s s', a = Some s -> b = Some s' -> inv I s -> dinv s -> dinv s').
  { induction 1 as [x|s0 l e s1 tr0 s2 H E IH]; intros s3 s' Ea Eb Hi D; [subst x; injection Eb as <-; exact D|].
    inversion Ea; subst s3. destruct s1 as [s1|]; [|inversion E; subst; discriminate].
    apply (IH s1 s'); auto; [eapply inv_step; eauto|eapply dinv_step; eauto]. }
  eapply G; eauto; [apply inv_start|].
  intros c k e E. unfold chan_of in E. cbn in E. rewrite cget_empty in E. destruct k; discriminate.
Qed.

Lemma final_quiet (s : gst) : reachable I s ->
  (forall i r, nth_error (g_ranks s) i = Some r -> r_prog r = Ret V) -> (forall c, quiet s c) -> final I (Some s).
Proof.
  intros R HR HQ. assert (D := dinv_reachable R). intros [i|c k|c|].
  - cbn. destruct (nth_error (g_ranks s) i) as [r|] eqn:E; auto. unfold rank_step. rewrite (HR _ _ E). reflexivity.
  - cbn [MpiModel.gstep]. destruct (nth_error (c_snd (chan_of s c)) k) as [e|] eqn:E; auto.
    destruct (nth_error (g_ranks s) (ch_src c)); auto.
    assert (L : k < length (c_snd (chan_of s c))) by (apply nth_error_Some; congruence).
    destruct (HQ c) as [Q _]. assert (X := D c k e E ltac:(lia)). destruct (s_dat e); [reflexivity|congruence].
  - cbn [MpiModel.gstep]. destruct (HQ c) as [Q _].
    replace (nth_error (c_snd (chan_of s c)) (c_del (chan_of s c))) with (@None (sent V)); auto.
    symmetry. apply nth_error_None. lia.
  - cbn. unfold coll_step. destruct (0 <? length (g_ranks s)) eqn:L0; cbn [andb]; auto.
    destruct (g_ranks s) as [|r l] eqn:G; [discriminate|]. cbn [forallb].
    unfold in_coll at 1. rewrite (HR 0 r eq_refl). reflexivity.
Qed.

Lemma leads_ends (s s' : gst) : reachable I s -> leads I s s' ->
  (forall i r, nth_error (g_ranks s') i = Some r -> r_prog r = Ret V) -> (forall c, quiet s' c) -> ends I s s'.
Proof.
  intros R L HR HQ. assert (R' := leads_reachable R L). assert (F := final_quiet R' HR HQ).
  assert (O : outcome I s' (Some s')) by (split; [exists []; constructor|exact F]).
  intro o. split.
  - intro X. apply (proj2 L) in X. eapply outcome_unique; eauto. apply reachable_inv. exact R'.
  - intros ->. apply (proj2 L). exact O.
Qed.

Lemma start_reachable P (m : nat -> list (obj V)) p : reachable I (start P m p).
Proof. exists P, m, p, []. constructor. Qed.

(** the state after Init on every rank *)
Lemma after_init P (m : nat -> list (obj V)) (k : nat -> prog V) :
  exists s, leads I (start P m (fun i => comm_Init (k i))) s /\ reachable I s /\ length (g_ranks s) = P /\
    (forall c, quiet s c) /\
    forall i r, nth_error (g_ranks s) i = Some r ->
      i < P /\ r_prog r = k i /\ ready r 1 /\ p_reqs (r_priv r) = [] /\ p_rank (r_priv r) = i /\ p_size (r_priv r) = P /\
      (forall b, objat (r_mem r) b = nth_error (m i) b) /\ (forall b, writable r b = true).
Proof.
  destruct (init_rule I P m k) as (s & L & LN & C & H). exists s. split; [exact L|].
  split; [exact (leads_reachable (start_reachable _ _ _) L)|]. split; [exact LN|]. split.
  { intro c. unfold quiet. rewrite C. split; reflexivity. }
  intros i r E. assert (Hi : i < P) by (rewrite <- LN; apply nth_error_Some; congruence).
  rewrite (H i Hi) in E. inversion E; subst r. split; [exact Hi|]. split; [reflexivity|].
  split; [split; [reflexivity|]; split; [reflexivity|discriminate]|]. split; [reflexivity|]. split; [reflexivity|].
  split; [reflexivity|]. split; [|reflexivity].
  intro b. unfold objat. cbn [r_mem]. rewrite nth_error_map. destruct (nth_error (m i) b); reflexivity.
Qed.
End Ends.
