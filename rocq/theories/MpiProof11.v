(** * MpiProof11: Gather and Scatter; Barrier; Init, Initialized, get_rank, get_size. *)
From Coq Require Import List Arith Bool Lia.
From Verif Require Import Base MpiMap MpiModel MpiProof MpiProof2 MpiProof3 MpiProof4 MpiProof5 MpiSpec MpiProof6 MpiProof7 MpiProof8 MpiProof10.
Import ListNotations.
Set Implicit Arguments.

Section Colls.
Variable V : Type.
Variable I : impl V.
Notation rst := (rst V).
Notation gst := (gst V).
Notation gstep := (gstep I).
Notation exec := (exec I).

Definition mt (o : obj V) : mty := match get_type (o_ty o) with Some m => m | None => MDouble end.
Lemma mt_ok (o : obj V) : supported (o_ty o) -> get_type (o_ty o) = Some (mt o).
Proof. intro S. unfold mt. destruct (supported_type S) as [m ->]. reflexivity. Qed.

(** the state of a rank inside Gather (g = true) or Scatter *)
Definition gs_coll (g : bool) (sa v root : nat) (so ro : obj V) : coll :=
  if g then CGather sa (length (o_dat so)) (mt so) v (length (o_dat ro)) (mt ro) root
  else CScatter sa (length (o_dat so)) (mt so) v (length (o_dat ro)) (mt ro) root.
Definition gs_prog (g : bool) (sa ra root : nat) (k : prog V) : prog V :=
  if g then comm_Gather sa ra root k else comm_Scatter sa ra root k.

Definition in_gs (g : bool) (c root : nat) (sa : nat -> nat) (so ro : nat -> obj V) (k : nat -> prog V) (i : nat) (r : rst) : rst :=
  let v := length (r_mem r) in
  with_mem r (r_mem r ++ [Some (ro i)]) (Coll c (gs_coll g (sa i) v root (so i) (ro i)) (Free v (k i))).

Lemma solo_gs g (r : rst) c root (sa ra : nat -> nat) (so ro : nat -> obj V) (k : nat -> prog V) i :
  r_prog r = gs_prog g (sa i) (ra i) root (k i) -> p_comm (r_priv r) = c ->
  holds r (sa i) (so i) -> holds r (ra i) (ro i) -> supported (o_ty (so i)) -> supported (o_ty (ro i)) ->
  0 < length (o_dat (so i)) -> 0 < length (o_dat (ro i)) ->
  solo r (in_gs g c root sa so ro k i r).
Proof.
  intros Pg Hc (Os & Ws) (Or & Wr) Ss Sr Ls Lr.
  assert (Gs := mt_ok _ Ss). assert (Gr := mt_ok _ Sr).
  destruct g; (eapply solo_trans; [exact (@solo_get_comm _ r _ Pg)|]; rewrite Hc;
    (eapply solo_trans; [eapply solo_read; [reflexivity|exact Os|exact (writable_readable _ _ Ws)]|]); cbv beta;
    (eapply solo_trans; [eapply solo_read; [reflexivity|exact Or|exact (writable_readable _ _ Wr)]|]); cbv beta;
    (destruct (Nat.eqb_spec (length (o_dat (so i))) 0); [lia|]); (destruct (Nat.eqb_spec (length (o_dat (ro i))) 0); [lia|]);
    cbn [orb]; apply solo_one; intros; unfold rank_step, by_value, with_type; cbn [with_prog r_prog]; rewrite Gs, Gr; reflexivity).
Qed.

Lemma solo_gs_crash g (r : rst) root (sa ra : nat -> nat) (so ro : nat -> obj V) (k : nat -> prog V) i :
  r_prog r = gs_prog g (sa i) (ra i) root (k i) ->
  holds r (sa i) (so i) -> holds r (ra i) (ro i) ->
  length (o_dat (so i)) = 0 \/ length (o_dat (ro i)) = 0 -> exists r', solo r r' /\ r_prog r' = Crash V.
Proof.
  intros Pg (Os & Ws) (Or & Wr) L. exists (with_prog r (Crash V)). split; [|reflexivity].
  destruct g; (eapply solo_trans; [exact (@solo_get_comm _ r _ Pg)|];
    (eapply solo_trans; [eapply solo_read; [reflexivity|exact Os|exact (writable_readable _ _ Ws)]|]); cbv beta;
    (eapply solo_trans; [eapply solo_read; [reflexivity|exact Or|exact (writable_readable _ _ Wr)]|]); cbv beta;
    destruct (Nat.eqb_spec (length (o_dat (so i))) 0), (Nat.eqb_spec (length (o_dat (ro i))) 0); try lia; cbn [orb]; constructor).
Qed.

Theorem gather_scatter_fails g (s : gst) c root (sa ra : nat -> nat) (so ro : nat -> obj V) (k : nat -> prog V) :
  reachable I s -> 2 <= length (g_ranks s) -> root < length (g_ranks s) ->
  (forall i r, nth_error (g_ranks s) i = Some r ->
     r_prog r = gs_prog g (sa i) (ra i) root (k i) /\ ready r c /\ holds r (sa i) (so i) /\ holds r (ra i) (ro i) /\
     supported (o_ty (so i)) /\ supported (o_ty (ro i))) ->
  fails I s.
Proof.
  intros R L2 Lr H. set (P := length (g_ranks s)).
  destruct (forallb (fun i => negb (Nat.eqb (length (o_dat (so i))) 0) && negb (Nat.eqb (length (o_dat (ro i))) 0)) (seq 0 P)) eqn:B.
  - rewrite forallb_forall in B.
    assert (POS : forall i, i < P -> 0 < length (o_dat (so i)) /\ 0 < length (o_dat (ro i))).
    { intros i Hi. specialize (B i). rewrite in_seq in B. specialize (B (conj (Nat.le_0_l _) Hi)).
      apply andb_true_iff in B as [B1 B2]. apply negb_true_iff, Nat.eqb_neq in B1, B2. lia. }
    destruct (@exec_solo_all V I (in_gs g c root sa so ro k) s) as (tr & l & E & PW).
    { intros i r Er. destruct (H i r Er) as (Pg & (Hi & Hc & C0) & Hs & Hr & Ss & Sr).
      assert (Li : i < P) by (apply nth_error_Some; congruence).
      eapply solo_gs; eauto; apply POS; exact Li. }
    assert (LEN := pointwise_length PW).
    assert (RK : forall i, i < P -> exists r, nth_error (g_ranks s) i = Some r /\ rk l i = in_gs g c root sa so ro k i r).
    { intros i Hi. destruct (nth_error (g_ranks s) i) as [r|] eqn:Er; [|apply nth_error_None in Er; unfold P in Hi; lia].
      exists r. split; auto. unfold rk. apply nth_error_nth. exact (pw_nth i PW Er). }
    eapply fails_intro; [exact R|]. eapply exec_app; [exact E|]. apply exec_coll_err. cbn [g_ranks].
    eapply coll_fail with (j := root); [lia| |reflexivity|].
    + intros i Hi. destruct (RK i) as (r & _ & ->); [unfold P; lia|reflexivity].
    + destruct (RK root Lr) as (r & Er & E0). unfold coll_ok. rewrite E0, LEN. fold P.
      destruct (POS root Lr) as [P1 P2].
      change (coll_args (in_gs g c root sa so ro k root r)) with (gs_coll g (sa root) (length (r_mem r)) root (so root) (ro root)).
      destruct (H root r Er) as (_ & _ & (Os & _) & _ & _).
      destruct g; unfold gs_coll.
      * cbn [coll_out]. rewrite Nat.eqb_refl. unfold out_ok. cbn [in_gs with_mem r_mem]. rewrite objat_snoc.
        assert (X : Nat.leb (P * length (o_dat (ro root))) (length (o_dat (ro root))) = false) by (apply Nat.leb_gt; unfold P; nia).
        rewrite X, !andb_false_r. reflexivity.
      * cbn [coll_in]. rewrite Nat.eqb_refl. unfold in_ok. cbn [in_gs with_mem r_mem].
        rewrite (objat_app (r_mem r) [Some (ro root)] (sa root) Os).
        assert (X : Nat.leb (P * length (o_dat (so root))) (length (o_dat (so root))) = false) by (apply Nat.leb_gt; unfold P; nia).
        rewrite X, !andb_false_r. reflexivity.
  - assert (X : exists i, i < P /\ (length (o_dat (so i)) = 0 \/ length (o_dat (ro i)) = 0)).
    { destruct (existsb (fun i => Nat.eqb (length (o_dat (so i))) 0 || Nat.eqb (length (o_dat (ro i))) 0) (seq 0 P)) eqn:EX.
      - apply existsb_exists in EX as (i & Hi & Hx). apply in_seq in Hi. exists i. split; [lia|].
        apply orb_true_iff in Hx as [Hx|Hx]; apply Nat.eqb_eq in Hx; auto.
      - exfalso. assert (Y : forallb (fun i => negb (Nat.eqb (length (o_dat (so i))) 0) && negb (Nat.eqb (length (o_dat (ro i))) 0)) (seq 0 P) = true); [|congruence].
        apply forallb_forall. intros i Hi. rewrite <- negb_orb. apply negb_true_iff. apply not_true_iff_false. intro Z.
        assert (existsb (fun i => Nat.eqb (length (o_dat (so i))) 0 || Nat.eqb (length (o_dat (ro i))) 0) (seq 0 P) = true); [|congruence].
        apply existsb_exists. eauto. }
    destruct X as (i & Hi & Hl). destruct (nth_error (g_ranks s) i) as [r|] eqn:Er; [|apply nth_error_None in Er; unfold P in Hi; lia].
    destruct (H i r Er) as (Pg & Rd & Hs & Hr & _).
    destruct (@solo_gs_crash g r root sa ra so ro k i Pg Hs Hr Hl) as (r' & Sr' & Cr).
    eapply err_fails; [exact R|exact Er|exact Sr'|]. intros. unfold rank_step. rewrite Cr. reflexivity.
Qed.

(** with one rank Gather and Scatter succeed and do nothing *)
Theorem gather_scatter_one g (s : gst) c sa ra so ro k r :
  reachable I s -> g_ranks s = [r] ->
  r_prog r = gs_prog g sa ra 0 k -> ready r c -> holds r sa so -> holds r ra ro ->
  supported (o_ty so) -> o_ty so = o_ty ro -> 0 < length (o_dat so) -> length (o_dat so) = length (o_dat ro) ->
  exists s' r', leads I s s' /\ g_ranks s' = [r'] /\ continues r k r'.
Proof.
  intros R G Pg (Hi & Hc & C0) Hs Hr Ss Ty L0 LL.
  assert (E0 : nth_error (g_ranks s) 0 = Some r) by (rewrite G; reflexivity).
  assert (Wf := fresh 0 R E0).
  assert (Sr : supported (o_ty ro)) by congruence.
  assert (Lo : 0 < length (o_dat ro)) by lia.
  assert (S := @solo_gs g r c 0 (fun _ => sa) (fun _ => ra) (fun _ => so) (fun _ => ro) (fun _ => k) 0 Pg Hc Hs Hr Ss Sr L0 Lo).
  destruct (exec_solo I S s 0 E0) as [tr E]. rewrite G in E. cbn [upd] in E.
  set (r1 := in_gs g c 0 _ _ _ _ 0 r) in *.
  destruct Hs as (Os & Ws).
  assert (Nsv : sa <> length (r_mem r)).
  { intros ->. rewrite objat_oob in Os. discriminate. }
  assert (MM : mt so = mt ro) by (unfold mt; rewrite Ty; reflexivity).
  assert (A1 : coll_args r1 = gs_coll g sa (length (r_mem r)) 0 so ro) by reflexivity.
  assert (RK1 : rk [r1] 0 = r1) by reflexivity.
  assert (CS : exists d, coll_step I [r1] = Some (Some [coll_after r1 (Some (length (r_mem r), length (o_dat ro))) d])).
  { assert (X := @coll_go V I [r1] (gs_coll g sa (length (r_mem r)) 0 so ro)). cbn [length] in X.
    assert (CR : coll_root (coll_args (rk [r1] 0)) = 0) by (rewrite RK1, A1; destruct g; reflexivity).
    rewrite CR in X. specialize (X Nat.lt_0_1).
    rewrite X.
    - cbn [seq map]. rewrite RK1, A1. destruct g; unfold gs_coll; cbn [coll_out]; rewrite ?Nat.eqb_refl, ?Nat.mul_1_l; eauto.
    - intros i Hi'. replace i with 0 by lia. reflexivity.
    - rewrite RK1. exact A1.
    - intros i Hi'. replace i with 0 by lia. unfold coll_ok. cbn [length]. rewrite RK1, A1.
      change (coll_comm r1) with c. change (p_init (r_priv r1)) with (p_init (r_priv r)). rewrite Hi.
      rewrite Nat.eqb_refl. destruct (Nat.eqb_spec c 0); [congruence|].
      assert (IO : in_ok r1 (Some (sa, length (o_dat so))) = true).
      { unfold in_ok. cbn [r1 in_gs with_mem r_mem]. rewrite (objat_app (r_mem r) [Some ro] sa Os).
        change (readable (in_gs g c 0 (fun _ => sa) (fun _ => so) (fun _ => ro) (fun _ => k) 0 r) sa) with (readable r sa).
        fold r1. change (readable r1 sa) with (readable r sa). rewrite (writable_readable _ _ Ws), Nat.leb_refl. reflexivity. }
      assert (OO : out_ok r1 (Some (length (r_mem r), length (o_dat ro))) = true).
      { unfold out_ok. cbn [r1 in_gs with_mem r_mem]. rewrite objat_snoc.
        fold r1. change (writable r1 (length (r_mem r))) with (writable r (length (r_mem r))).
        rewrite Wf, Nat.leb_refl. reflexivity. }
      destruct g; unfold gs_coll, alias_ok; cbn [coll_in coll_out compat]; rewrite ?Nat.eqb_refl, ?Nat.mul_1_l, IO, OO, MM, LL, mty_eqb_refl, Nat.eqb_refl;
        destruct (Nat.eqb_spec sa (length (r_mem r))); try congruence; reflexivity. }
  destruct CS as [d CS]. assert (E2 := exec_coll I (Gst [r1] (g_chans s)) CS). cbn [g_chans] in E2.
  set (r2 := coll_after r1 _ d) in E2.
  assert (DL : exists o', deliver (r_mem r ++ [Some ro]) (length (r_mem r)) d = r_mem r ++ [Some o']).
  { unfold deliver. rewrite objat_snoc. eexists. apply upd_snoc. }
  destruct DL as [o' DL].
  assert (R2 : r2 = with_mem r (r_mem r ++ [Some o']) (Free (length (r_mem r)) k)).
  { unfold r2, coll_after, r1, in_gs. unfold with_mem. cbn [r_mem r_act r_priv coll_next r_prog]. rewrite DL. reflexivity. }
  assert (S3 : solo r2 (with_mem r (r_mem r ++ [None]) k)).
  { rewrite R2. apply solo_one. intros. unfold rank_step. cbn [with_mem r_prog r_mem]. rewrite objat_snoc.
    change (writable (with_mem r (r_mem r ++ [Some o']) (Free (length (r_mem r)) k)) (length (r_mem r))) with (writable r (length (r_mem r))).
    rewrite Wf. unfold with_mem. cbn [r_act r_priv]. rewrite upd_snoc. reflexivity. }
  destruct (exec_solo I S3 (Gst [r2] (g_chans s)) 0 eq_refl) as [tr3 E3]. cbn [g_ranks g_chans upd] in E3.
  eexists _, _. split; [eapply leads_intro; [exact R|eapply exec_app; [exact E|eapply exec_app; [exact E2|exact E3]]]|].
  split; [reflexivity|]. split; [reflexivity|]. split; [reflexivity|]. split; [intro x; apply objat_snoc_none|reflexivity].
Qed.

(** ** Barrier *)

Theorem barrier_rule (s : gst) c k :
  reachable I s -> 0 < length (g_ranks s) ->
  (forall i r, nth_error (g_ranks s) i = Some r -> r_prog r = comm_Barrier (k i) /\ ready r c) ->
  exists s', leads I s s' /\ length (g_ranks s') = length (g_ranks s) /\
    (forall c', chan_of s' c' = chan_of s c') /\
    forall i r, nth_error (g_ranks s) i = Some r ->
      exists r', nth_error (g_ranks s') i = Some r' /\ continues r (k i) r'.
Proof.
  intros R L0 H. set (g := fun i (r : rst) => with_prog r (Coll c CBarrier (k i))).
  destruct (@exec_solo_all V I g s) as (tr & l & E & PW).
  { intros i r Er. destruct (H i r Er) as (Pg & (Hi & Hc & C0)).
    eapply solo_trans; [exact (@solo_get_comm _ r _ Pg)|]. rewrite Hc. constructor. }
  set (P := length (g_ranks s)). assert (LEN : length l = P) by exact (pointwise_length PW).
  assert (RK : forall i, i < P -> exists r, nth_error (g_ranks s) i = Some r /\ rk l i = g i r).
  { intros i Hi. destruct (nth_error (g_ranks s) i) as [r|] eqn:Er; [|apply nth_error_None in Er; unfold P in Hi; lia].
    exists r. split; auto. unfold rk. apply nth_error_nth. exact (pw_nth i PW Er). }
  assert (CS := @coll_go V I l CBarrier). rewrite LEN in CS. specialize (CS L0).
  assert (A0 : coll_args (rk l 0) = CBarrier) by (destruct (RK 0 L0) as (r & _ & ->); reflexivity).
  rewrite A0 in CS. cbn [coll_root] in CS.
  assert (CS2 := CS ltac:(intros i Hi; destruct (RK i Hi) as (r & _ & ->); reflexivity) A0). clear CS.
  assert (CS : forall i, i < P -> coll_ok I l CBarrier i = true).
  { intros i Hi. destruct (RK i Hi) as (r & Er & Ei). destruct (RK 0 L0) as (r0 & Er0 & E0).
    destruct (H i r Er) as (Pg & (Hin & Hc & C0)). unfold coll_ok. rewrite Ei, E0.
    change (coll_args (g i r)) with CBarrier. change (coll_comm (g i r)) with c. change (coll_comm (g 0 r0)) with c.
    change (p_init (r_priv (g i r))) with (p_init (r_priv r)). rewrite Hin, Nat.eqb_refl.
    destruct (Nat.eqb_spec c 0); [congruence|reflexivity]. }
  apply CS2 in CS. assert (E2 := exec_coll I (Gst l (g_chans s)) CS). cbn [g_chans] in E2.
  eexists. split; [eapply leads_intro; [exact R|eapply exec_app; [exact E|exact E2]]|].
  cbn [g_ranks]. split; [rewrite map_length, seq_length; reflexivity|]. split; [reflexivity|].
  intros i r Er. assert (Hi : i < P) by (apply nth_error_Some; congruence).
  eexists. split.
  { rewrite nth_error_nth' with (d := dead V) by (rewrite map_length, seq_length; exact Hi).
    rewrite nth_map_seq' by exact Hi. reflexivity. }
  destruct (RK i Hi) as (r1 & Er1 & ->). rewrite Er in Er1. inversion Er1; subst r1.
  split; [reflexivity|]. split; [reflexivity|]. split; reflexivity.
Qed.

(** nobody leaves the barrier before everybody has entered it *)
Lemma in_coll_step (s s' : gst) l ev i r : nth_error (g_ranks s) i = Some r -> in_coll r = true ->
  gstep s l = Some (ev, Some s') ->
  (exists r', nth_error (g_ranks s') i = Some r' /\ r_prog r' = r_prog r) \/ Forall (fun r => in_coll r = true) (g_ranks s).
Proof.
  intros E C G. destruct l as [j|c k|c|].
  - left. apply rank_inv in G as (r0 & Er & r' & p & Sp & -> & ->). cbn [g_ranks]. destruct (Nat.eq_dec i j) as [<-|N].
    + exfalso. rewrite E in Er. inversion Er; subst. unfold rank_step in Sp. unfold in_coll in C. destruct (r_prog r0); discriminate.
    + exists r. split; [|reflexivity]. rewrite nth_error_upd. destruct (Nat.eqb_spec j i); [congruence|exact E].
  - left. apply xmit_inv in G as (e0 & ra & _ & _ & _ & _ & o & _ & PW & _). exists (xf I c e0 i r).
    split; [rewrite (PW i), E; reflexivity|]. unfold xf. destruct (i_eager I (s_cnt e0) && Nat.eqb i (ch_src c)); reflexivity.
  - left. apply match_inv in G as (e0 & p & d & _ & _ & _ & _ & _ & PW & _). exists (mf I c e0 p d i r).
    split; [rewrite (PW i), E; reflexivity|]. unfold mf.
    destruct (Nat.eqb i (ch_dst c)), (negb (i_eager I (s_cnt e0)) && Nat.eqb i (ch_src c)); reflexivity.
  - right. cbn [MpiModel.gstep] in G. destruct (coll_step I (g_ranks s)) as [[m|]|] eqn:CS; try discriminate.
    unfold coll_step in CS. destruct (Nat.ltb 0 (length (g_ranks s)) && forallb (@in_coll V) (g_ranks s)) eqn:B; [|discriminate].
    apply andb_true_iff in B as [_ B]. rewrite forallb_forall in B. apply Forall_forall. exact B.
Qed.

Theorem barrier_waits_exec a0 tr b0 : exec a0 tr b0 -> forall s n i r r', a0 = Some s -> b0 = Some n ->
  nth_error (g_ranks s) i = Some r -> in_coll r = true -> nth_error (g_ranks n) i = Some r' -> r_prog r' <> r_prog r ->
  exists t t1 t2, exec (Some s) t1 (Some t) /\ exec (Some t) t2 (Some n) /\ Forall (fun r => in_coll r = true) (g_ranks t) /\
    exists rt, nth_error (g_ranks t) i = Some rt /\ r_prog rt = r_prog r.
Proof.
  induction 1 as [x|s0 l e s1 t s2 G E IH]; intros s n i r r' A B Er C Er' Ne; subst.
  - inversion B; subst. rewrite Er in Er'. inversion Er'; subst. congruence.
  - inversion A; subst s0. destruct s1 as [s1|]; [|inversion E].
    destruct (@in_coll_step s s1 l e i r Er C G) as [(r1 & Er1 & P1)|F].
    + assert (C1 : in_coll r1 = true) by (unfold in_coll in *; rewrite P1; exact C).
      destruct (IH s1 n i r1 r' eq_refl eq_refl Er1 C1 Er') as (t' & t1 & t2 & X1 & X2 & X3 & rt & X4 & X5); [congruence|].
      exists t', (e ++ t1), t2. split; [econstructor; eauto|]. split; [exact X2|]. split; [exact X3|]. exists rt. split; [exact X4|congruence].
    + exists s, [], (e ++ t). split; [constructor|]. split; [econstructor; eauto|]. split; [exact F|]. eauto.
Qed.

(** ** Life cycle *)

Theorem init_rule P (m : nat -> list (obj V)) (k : nat -> prog V) :
  exists s', leads I (start P m (fun i => comm_Init (k i))) s' /\ length (g_ranks s') = P /\
    (forall c, chan_of s' c = c0 V) /\
    forall i, i < P -> nth_error (g_ranks s') i = Some (Rst (map Some (m i)) [] (Priv i P true 1 []) (k i)).
Proof.
  set (s := start P m (fun i => comm_Init (k i))).
  assert (N : forall i, i < P -> nth_error (g_ranks s) i = Some (rank0 P i (m i) (comm_Init (k i)))).
  { intros i Hi. unfold s, start. cbn [g_ranks]. rewrite nth_error_map. 
    rewrite (nth_error_nth' (seq 0 P) 0) by (rewrite seq_length; exact Hi). rewrite seq_nth by exact Hi. reflexivity. }
  assert (LS : length (g_ranks s) = P) by (unfold s, start; cbn [g_ranks]; rewrite map_length, seq_length; reflexivity).
  destruct (@exec_solo_all V I (fun i r => Rst (r_mem r) (r_act r) (Priv i P true 1 []) (k i)) s) as (tr & l & E & PW).
  { intros i r Er. assert (Hi : i < P) by (rewrite <- LS; apply nth_error_Some; congruence).
    rewrite (N i Hi) in Er. inversion Er; subst r. clear Er.
    do 3 (econstructor; [intros; reflexivity|]). cbn [p_comm Nat.eqb].
    econstructor; [intros; reflexivity|]. constructor. }
  exists (Gst l (g_chans s)). split; [|split; [|split]].
  - eapply leads_intro; [|exact E]. exists P, m, (fun i => comm_Init (k i)), []. constructor.
  - cbn [g_ranks]. rewrite (pointwise_length PW). exact LS.
  - intro c. unfold chan_of. cbn [g_chans]. apply cget_empty.
  - intros i Hi. exact (pw_nth i PW (N i Hi)).
Qed.

Theorem init_twice_fails (s : gst) i r k : reachable I s -> nth_error (g_ranks s) i = Some r ->
  p_init (r_priv r) = true -> r_prog r = comm_Init k -> fails I s.
Proof.
  intros R E Hi Pg. eapply err_fails with (r' := with_prog r (Crash V)); [exact R|exact E| |reflexivity].
  apply solo_one. intros. unfold rank_step. rewrite Pg. unfold comm_Init. rewrite Hi. reflexivity.
Qed.

Lemma leads_rank (s : gst) i r r' : reachable I s -> nth_error (g_ranks s) i = Some r -> solo r r' ->
  leads I s (Gst (upd (g_ranks s) i r') (g_chans s)).
Proof. intros R E S. destruct (exec_solo I S s i E) as [tr X]. eapply leads_intro; eauto. Qed.

Theorem initialized_rule (s : gst) i r k : reachable I s -> nth_error (g_ranks s) i = Some r ->
  r_prog r = comm_Initialized k ->
  leads I s (Gst (upd (g_ranks s) i (with_prog r (k (negb (p_init (r_priv r)))))) (g_chans s)).
Proof.
  intros R E Pg. eapply leads_rank; eauto. apply solo_one. intros. unfold rank_step. rewrite Pg. unfold comm_Initialized.
  destruct (p_init (r_priv r)); reflexivity.
Qed.

Theorem rank_size_rule (s : gst) i r c k : reachable I s -> nth_error (g_ranks s) i = Some r -> ready r c ->
  (r_prog r = comm_get_rank k -> leads I s (Gst (upd (g_ranks s) i (with_prog r (k (p_rank (r_priv r))))) (g_chans s))) /\
  (r_prog r = comm_get_size k -> leads I s (Gst (upd (g_ranks s) i (with_prog r (k (p_size (r_priv r))))) (g_chans s))).
Proof.
  intros R E (Hi & Hc & C0). split; intro Pg; eapply leads_rank; eauto;
    (eapply solo_trans; [exact (@solo_get_comm _ r _ Pg)|]; rewrite Hc; (destruct (Nat.eqb_spec c 0); [congruence|]);
     apply solo_one; intros; unfold rank_step; cbn [with_prog r_prog r_priv]; rewrite Hi; reflexivity).
Qed.
End Colls.
