(** * MpiProof12: no schedule runs for ever, and every program has an outcome. *)
From Coq Require Import List Arith Bool Lia.
From Verif Require Import Base MpiMap MpiModel MpiProof MpiProof2 MpiProof3 MpiProof4 MpiProof5.
Import ListNotations.
Set Implicit Arguments.

Section Termination.
Variable V : Type.
Variable I : impl V.
Notation rst := (rst V).
Notation gst := (gst V).
Notation prog := (prog V).
Notation gstep := (gstep I).
Notation exec := (exec I).

(** [p'] is what may remain of [p] after one action *)
Inductive sub : prog -> prog -> Prop :=
| sub_Loc f k x : sub (k x) (Loc f k)
| sub_Alloc o k x : sub (k x) (Alloc o k)
| sub_Free a k : sub k (Free a k)
| sub_Read a k x : sub (k x) (Read a k)
| sub_Write a d k : sub k (Write a d k)
| sub_Isend c a n t d g k x : sub (k x) (Isend c a n t d g k)
| sub_Irecv c a n t d g k x : sub (k x) (Irecv c a n t d g k)
| sub_Wait q k : sub k (Wait q k)
| sub_Coll c x k : sub k (Coll c x k).

Lemma sub_wf : well_founded sub.
Proof. intro p. induction p; constructor; intros y Hy; inversion Hy; subst; auto. Qed.

Inductive plt : list prog -> list prog -> Prop :=
| plt_l p' p l' l : sub p' p -> (l' = l \/ plt l' l) -> plt (p' :: l') (p :: l)
| plt_r p l' l : plt l' l -> plt (p :: l') (p :: l).

Lemma plt_wf : well_founded plt.
Proof.
  assert (C : forall p, Acc sub p -> forall l, Acc plt l -> Acc plt (p :: l)).
  { intros p Ap. induction Ap as [p _ IHp]. intros l Al. induction Al as [l Al IHl]. constructor.
    intros y H. inversion H as [p' p0 l' l0 S O|p0 l' l0 R]; subst.
    - apply IHp; auto. destruct O as [->|O]; [constructor; exact Al|apply Al, O].
    - apply IHl; auto. }
  intro l. induction l as [|p l IH]; [constructor; intros y H; inversion H|].
  apply C; auto. apply sub_wf.
Qed.

Definition progs (s : gst) : list prog := map (fun r => r_prog r) (g_ranks s).

(** what the library still has to do on one channel *)
Definition todo (x : cst V) : nat :=
  length (filter (fun e => match s_dat e with None => true | _ => false end) (c_snd x)) +
  (length (c_snd x) - c_del x).
Definition work (s : gst) : nat := csum todo (g_chans s).

Lemma plt_upd (l : list rst) i r r' : nth_error l i = Some r -> sub (r_prog r') (r_prog r) ->
  plt (map (fun r => r_prog r) (upd l i r')) (map (fun r => r_prog r) l).
Proof.
  revert i. induction l as [|x l IH]; intros [|i] E S; try discriminate.
  - cbn in E. inversion E; subst. cbn. apply plt_l; auto.
  - cbn. apply plt_r. apply (IH i); auto.
Qed.

Lemma plt_all (l : list rst) : l <> [] -> forall l', length l' = length l ->
  (forall i r, nth_error l i = Some r -> exists r', nth_error l' i = Some r' /\ sub (r_prog r') (r_prog r)) ->
  plt (map (fun r => r_prog r) l') (map (fun r => r_prog r) l).
Proof.
  intro N. induction l as [|x l IH]; [congruence|]. intros l' L H.
  destruct l' as [|x' l']; [discriminate|]. destruct (H 0 x eq_refl) as (r' & E & SS). cbn in E. inversion E; subst r'.
  cbn. apply plt_l; auto. destruct l as [|y l].
  - destruct l'; [auto|discriminate].
  - right. apply IH; [discriminate|cbn in *; lia|]. intros i r X. exact (H (S i) r X).
Qed.

Lemma rank_step_sub P i ns nr (r r' : rst) p : rank_step P i ns nr r = OGo r' p -> sub (r_prog r') (r_prog r).
Proof.
  unfold rank_step. intro H. destruct (r_prog r); try discriminate;
    repeat match type of H with context [match ?x with _ => _ end] => destruct x; try discriminate end;
    inversion H; subst; cbn; constructor.
Qed.

Lemma map_pw (f : nat -> rst -> rst) l l' : pointwise f l l' -> (forall i r, r_prog (f i r) = r_prog r) ->
  map (fun r => r_prog r) l' = map (fun r => r_prog r) l.
Proof.
  intros PW H. apply nth_error_ext. intro i. rewrite !nth_error_map, (PW i).
  destruct (nth_error l i); cbn; auto. rewrite H. reflexivity.
Qed.

Lemma xf_prog c e i (r : rst) : r_prog (xf I c e i r) = r_prog r.
Proof. unfold xf, bmark. repeat match goal with |- context [if ?b then _ else _] => destruct b end; reflexivity. Qed.
Lemma mf_prog c e p d i (r : rst) : r_prog (mf I c e p d i r) = r_prog r.
Proof. unfold mf, bmark, bdel. repeat match goal with |- context [if ?b then _ else _] => destruct b end; reflexivity. Qed.

Lemma filter_upd {A} (f : A -> bool) (l : list A) k x y : nth_error l k = Some x -> f x = true -> f y = false ->
  S (length (filter f (upd l k y))) = length (filter f l).
Proof.
  revert k. induction l as [|z l IH]; intros [|k] E X Y; try discriminate.
  - cbn in E. inversion E; subst. cbn. rewrite X, Y. reflexivity.
  - cbn. specialize (IH k E X Y). destruct (f z); cbn; lia.
Qed.

Lemma step_decreases s l e s' : gstep s l = Some (e, Some s') ->
  plt (progs s') (progs s) \/ (progs s' = progs s /\ work s' < work s).
Proof.
  intro H. destruct l as [i|c k|c|].
  - left. apply rank_inv in H as (r & Er & r' & p & St & -> & X). inversion X; subst.
    apply rank_step_sub in St. unfold progs. cbn. eapply plt_upd; eauto.
  - right. apply xmit_inv in H as (e0 & ra & E & Ea & D & -> & o & O & PW & CH).
    split; [unfold progs; eapply map_pw; [exact PW|intros; apply xf_prog]|].
    unfold work. rewrite CH.
    match goal with |- csum todo (cset _ _ ?x) < _ =>
      assert (Y := csum_set todo (c0 V) (g_chans s) c x eq_refl); assert (T : S (todo x) = todo (chan_of s c)) end.
    { unfold todo. cbn [c_snd c_del]. rewrite upd_length. rewrite <- (@filter_upd _ (fun e => match s_dat e with None => true | _ => false end) _ _ e0 (Sent (s_buf e0) (s_cnt e0) (s_ty e0) (s_req e0) (Some (firstn (s_cnt e0) (o_dat o)))) E); cbn; try rewrite D; try reflexivity; lia. }
    unfold chan_of in *. lia.
  - right. apply match_inv in H as (e0 & p & d & E & Ep & D & -> & FT & PW & CH).
    split; [unfold progs; eapply map_pw; [exact PW|intros; apply mf_prog]|].
    unfold work. rewrite CH.
    match goal with |- csum todo (cset _ _ ?x) < _ =>
      assert (Y := csum_set todo (c0 V) (g_chans s) c x eq_refl); assert (T : S (todo x) = todo (chan_of s c)) end.
    { unfold todo. cbn [c_snd c_del]. assert (c_del (chan_of s c) < length (c_snd (chan_of s c))) by (apply nth_error_Some; congruence). lia. }
    unfold chan_of in *. lia.
  - left. cbn in H. destruct (coll_step I (g_ranks s)) as [[rs|]|] eqn:C; inversion H; subst.
    unfold coll_step in C.
    destruct (Nat.ltb_spec 0 (length (g_ranks s))) as [L|]; cbn [andb] in C; [|discriminate].
    destruct (forallb (@in_coll V) (g_ranks s)) eqn:IC; [|discriminate].
    destruct (forallb (coll_ok I (g_ranks s) _) _); inversion C; subst.
    unfold progs. cbn [g_ranks]. apply plt_all; [destruct (g_ranks s); [cbn in L; lia|discriminate]|rewrite map_length, seq_length; reflexivity|].
    intros i r Er. assert (Li : i < length (g_ranks s)) by (apply nth_error_Some; congruence).
    rewrite nth_error_map, (nth_error_nth' _ 0) by (rewrite seq_length; lia). rewrite seq_nth by lia. cbn [option_map plus].
    eexists. split; [reflexivity|].
    assert (X := rk_nth_error (g_ranks s) Li). rewrite Er in X. inversion X as [Y]. rewrite <- Y.
    rewrite forallb_forall in IC. specialize (IC r (nth_error_In _ _ Er)). unfold in_coll in IC.
    assert (Z : forall out d, r_prog (coll_after r out d) = coll_next r) by (intros [[b n]|] d; reflexivity).
    rewrite Z. unfold coll_next. destruct (r_prog r); try discriminate. constructor.
Qed.

(** one step of the program under some schedule *)
Definition next (s' s : gst) : Prop := exists l e, gstep s l = Some (e, Some s').

Theorem next_wf : well_founded next.
Proof.
  assert (C : forall l, Acc plt l -> forall n s, progs s = l -> work s = n -> Acc next s).
  { intros l Al. induction Al as [l _ IHl]. intro n. induction n as [n IHn] using lt_wf_ind.
    intros s El En. constructor. intros s' (lb & e & H).
    destruct (step_decreases _ _ H) as [P|[P W]].
    - apply (IHl (progs s')) with (n := work s'); auto. rewrite El in P. exact P.
    - apply (IHn (work s')); auto; [lia|congruence]. }
  intro s. eapply (C (progs s)); eauto. apply plt_wf.
Qed.

(** there is no infinite execution *)
Theorem no_infinite_run (f : nat -> gst) : (forall n, next (f (S n)) (f n)) -> False.
Proof.
  intro H. assert (C : forall s, Acc next s -> forall n, f n = s -> False).
  { intros s A. induction A as [s _ IH]. intros n E. apply (IH (f (S n))) with (n := S n); auto. rewrite <- E. apply H. }
  apply (C (f 0)) with (n := 0); auto. apply next_wf.
Qed.

(** whether some agent can act is decidable *)
Lemma step_dec s : (exists l x, gstep s l = Some x) \/ forall l, gstep s l = None.
Proof.
  set (cand := map (fun i => LRank i) (seq 0 (length (g_ranks s))) ++ [LColl] ++
     flat_map (fun c => LMatch c :: map (fun k => LXmit c k) (seq 0 (length (c_snd (chan_of s c))))) (ckeys (g_chans s))).
  assert (D : (exists l, In l cand /\ gstep s l <> None) \/ forall l, In l cand -> gstep s l = None).
  { induction cand as [|l c IH]; [right; intros l []|].
    destruct (gstep s l) eqn:E; [left; exists l; split; [left; auto|congruence]|].
    destruct IH as [(l' & X & Y)|N]; [left; exists l'; split; [right; auto|auto]|].
    right. intros l' [<-|X]; auto. }
  destruct D as [(l & _ & H)|N].
  - left. destruct (gstep s l) as [x|] eqn:E; [eauto|congruence].
  - right. intro l. destruct (gstep s l) eqn:E; auto. exfalso.
    assert (J : In l cand); [|rewrite (N l J) in E; discriminate].
    unfold cand. apply in_or_app.
    destruct l as [i|c k|c|].
    + left. apply in_map. apply in_seq. cbn in E. destruct (nth_error (g_ranks s) i) eqn:X; [|discriminate].
      assert (i < length (g_ranks s)) by (apply nth_error_Some; congruence). lia.
    + right. right. apply in_flat_map. exists c. cbn [MpiModel.gstep] in E.
      destruct (nth_error (c_snd (chan_of s c)) k) eqn:X; [|discriminate].
      assert (k < length (c_snd (chan_of s c))) by (apply nth_error_Some; congruence). split.
      * apply (ckeys_in (c0 V)). intro Z. unfold chan_of in X. rewrite Z in X. destruct k; discriminate.
      * right. apply in_map, in_seq. lia.
    + right. right. apply in_flat_map. exists c. cbn [MpiModel.gstep] in E.
      destruct (nth_error (c_snd (chan_of s c)) (c_del (chan_of s c))) eqn:X; [|discriminate]. split.
      * apply (ckeys_in (c0 V)). intro Z. unfold chan_of in X. rewrite Z in X. discriminate.
      * left. reflexivity.
    + right. left. reflexivity.
Qed.

Theorem outcome_exists s : exists o, outcome I s o.
Proof.
  induction (next_wf s) as [s _ IH]. destruct (step_dec s) as [(l & [e [s'|]] & H)|N].
  - destruct (IH s') as (o & [tr X] & F); [exists l, e; exact H|].
    exists o. split; auto. exists (e ++ tr). econstructor; eauto.
  - exists None. split; [|exact Logic.I]. exists (e ++ []). econstructor; eauto. constructor.
  - exists (Some s). split; [exists []; constructor|exact N].
Qed.
End Termination.
