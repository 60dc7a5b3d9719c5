(** * MpiProof9: every rank receives, sends and waits, without blocking in between. *)
From Coq Require Import List Arith Bool Lia.
From Verif Require Import Base MpiMap MpiModel MpiProof MpiProof2 MpiProof3 MpiProof4 MpiProof5 MpiSpec MpiProof6 MpiProof7 MpiProof8.
Import ListNotations.
Set Implicit Arguments.

Section Exchange.
Variable V : Type.
Variable I : impl V.
Notation rst := (rst V).
Notation gst := (gst V).
Notation gstep := (gstep I).
Notation exec := (exec I).

Variable s : gst.
Let P := length (g_ranks s).
Variables (c tag : nat) (src dst a b : nat -> nat) (oa ob : nat -> obj V) (k : nat -> prog V).
Let ch i : chan := (c, i, dst i, tag).

Hypothesis Hsrc : forall i, i < P -> src i < P.
Hypothesis Hdst : forall i, i < P -> dst i < P.
Hypothesis Hsd : forall i, i < P -> src (dst i) = i.
Hypothesis Hds : forall i, i < P -> dst (src i) = i.
Hypothesis Hty : forall i, i < P -> supported (o_ty (oa i)) /\ o_ty (oa i) = o_ty (ob (dst i)).
Hypothesis Hlen : forall i, i < P -> 0 < length (o_dat (oa i)) <= length (o_dat (ob (dst i))).
Hypothesis Hq : forall i, i < P -> quiet s (ch i).
Hypothesis H : forall i r, nth_error (g_ranks s) i = Some r ->
  r_prog r = comm_Irecv_vec (b i) (src i) tag (comm_Isend_std (a i) (dst i) tag (comm_Waitall (k i))) /\
  ready r c /\ p_reqs (r_priv r) = [] /\ holds r (a i) (oa i) /\ holds r (b i) (ob i) /\ a i <> b i.

Let mt i : mty := match get_type (o_ty (oa i)) with Some m => m | None => MDouble end.
Let na i := length (o_dat (oa i)).
Let nb i := length (o_dat (ob i)).
Let rr i := rk (g_ranks s) i.
Let q i := length (r_act (rr i)).
Let del i := c_del (chan_of s (ch i)).

(** rank [i] inside MPI_Waitall; [fs]: its send has completed, [fr]: its receive has completed *)
Let W (i : nat) (fs fr : bool) : rst :=
  Rst (if fr then deliver (r_mem (rr i)) (b i) (o_dat (oa (src i))) else r_mem (rr i))
      (r_act (rr i) ++ [Some (Areq (b i) (nb i) false (ch (src i)) (del (src i)) fr);
                        Some (Areq (a i) (na i) true (ch i) (del i) fs)])
      (with_reqs (r_priv (rr i)) [q i; S (q i)]) (Wait [q i; S (q i)] (set_reqs [] (k i))).
Let se i (d : option (list V)) : sent V := Sent (a i) (na i) (mt i) (S (q i)) d.
Let po i : posted := Posted (b i) (nb i) (mt (src i)) (q i).

Lemma ch_inj i j : ch i = ch j -> i = j.
Proof. unfold ch. intro E. congruence. Qed.

Lemma rr_nth i : i < P -> nth_error (g_ranks s) i = Some (rr i).
Proof. intro L. apply rk_nth_error. exact L. Qed.

Lemma mt_type i : i < P -> get_type (o_ty (oa i)) = Some (mt i).
Proof. intro L. unfold mt. destruct (supported_type (proj1 (Hty L))) as [m ->]. reflexivity. Qed.
Lemma mt_type_b i : i < P -> get_type (o_ty (ob i)) = Some (mt (src i)).
Proof.
  intro L. rewrite <- (mt_type (Hsrc L)), (proj2 (Hty (Hsrc L))), (Hds L). reflexivity.
Qed.
Lemma nb_pos i : i < P -> 0 < nb i.
Proof. intro L. assert (X := Hlen (Hsrc L)). rewrite (Hds L) in X. unfold nb. lia. Qed.

(** phase 1: after the first [n] ranks have posted *)
Definition posted_n (n : nat) (t : gst) : Prop :=
  length (g_ranks t) = P /\
  (forall i, i < P -> nth_error (g_ranks t) i = Some (if Nat.ltb i n then W i false false else rr i)) /\
  (forall i, i < P -> chan_of t (ch i) =
     Cst (c_snd (chan_of s (ch i)) ++ (if Nat.ltb i n then [se i None] else []))
         (c_rcv (chan_of s (ch i)) ++ (if Nat.ltb (dst i) n then [po (dst i)] else [])) (del i)) /\
  (forall c', (forall i, i < P -> c' <> ch i) -> chan_of t c' = chan_of s c').

Lemma ltb_S_ne i n : i <> n -> Nat.ltb i (S n) = Nat.ltb i n.
Proof. intro N. destruct (Nat.ltb_spec i (S n)), (Nat.ltb_spec i n); auto; lia. Qed.
Lemma ltb_S_eq n : Nat.ltb n (S n) = true.
Proof. apply Nat.ltb_lt. lia. Qed.

Lemma phase1 n : n <= P -> exists tr t, exec (Some s) tr (Some t) /\ posted_n n t.
Proof.
  induction n as [|n IH]; intro L.
  - exists [], s. split; [constructor|]. split; [reflexivity|]. split; [|split].
    + intros i Hi. apply rr_nth. exact Hi.
    + intros i Hi. cbn [Nat.ltb Nat.leb]. rewrite !app_nil_r. unfold del. destruct (chan_of s (ch i)); reflexivity.
    + reflexivity.
  - destruct IH as (tr & t & E & Lt & Nt & Ct & Ot); [lia|].
    assert (Hn : n < P) by lia.
    assert (En : nth_error (g_ranks t) n = Some (rr n)) by (rewrite Nt, Nat.ltb_irrefl by exact Hn; reflexivity).
    destruct (H _ (rr_nth Hn)) as (Pg & Rd & Rq & Ha & Hb & Nab).
    destruct (@post_pair V I t n (rr n) c tag (a n) (b n) (src n) (dst n) (oa n) (ob n) (mt n) (mt (src n)) (k n) En Pg Rd Rq Ha Hb Nab
       (mt_type Hn) (mt_type_b Hn) (proj1 (Hlen Hn)) (nb_pos Hn)) as [tr2 E2].
    { rewrite Lt. apply Hsrc. exact Hn. }
    { rewrite Lt. apply Hdst. exact Hn. }
    cbv zeta in E2.
    assert (CR : (c, src n, n, tag) = ch (src n)) by (unfold ch; rewrite (Hds Hn); reflexivity).
    rewrite CR in E2. change (c, n, dst n, tag) with (ch n) in E2.
    assert (NR : nrecv t (ch (src n)) = del (src n)).
    { unfold nrecv. rewrite (Ct _ (Hsrc Hn)), (Hds Hn), Nat.ltb_irrefl. cbn [c_rcv]. rewrite app_nil_r.
      symmetry. apply (Hq (Hsrc Hn)). }
    assert (NS : nsend t (ch n) = del n).
    { unfold nsend. rewrite (Ct _ Hn), Nat.ltb_irrefl. cbn [c_snd]. rewrite app_nil_r. symmetry. apply (Hq Hn). }
    rewrite NR, NS in E2. fold (nb n) in E2. fold (na n) in E2. fold (q n) in E2.
    eexists _, _. split; [eapply exec_app; [exact E|exact E2]|].
    split; [cbn [g_ranks]; rewrite upd_length; exact Lt|]. split; [|split].
    + intros i Hi. cbn [g_ranks]. rewrite nth_error_upd. destruct (Nat.eqb_spec n i) as [<-|N].
      * rewrite Lt, (proj2 (Nat.ltb_lt _ _) Hn), ltb_S_eq. reflexivity.
      * cbn [andb]. rewrite ltb_S_ne by congruence. apply Nt. exact Hi.
    + intros i Hi. rewrite chan_of_post, cget_post. change (cget (c0 V) (g_chans t) (ch i)) with (chan_of t (ch i)).
      rewrite (Ct i Hi). cbn [post_on]. 
      destruct (chan_dec (ch (src n)) (ch i)) as [E1|N1].
      * apply ch_inj in E1. subst i. rewrite (Hds Hn), ltb_S_eq, Nat.ltb_irrefl, app_nil_r.
        destruct (chan_dec (ch n) (ch (src n))) as [E3|N3].
        -- apply ch_inj in E3. rewrite <- E3, ltb_S_eq, Nat.ltb_irrefl, app_nil_r. cbn [c_snd c_rcv c_del].
           unfold po. rewrite <- E3. reflexivity.
        -- rewrite ltb_S_ne by (intro X; apply N3; rewrite <- X at 1; reflexivity). reflexivity.
      * destruct (chan_dec (ch n) (ch i)) as [E3|N3].
        -- apply ch_inj in E3. subst i. rewrite ltb_S_eq, Nat.ltb_irrefl, app_nil_r. cbn [c_snd c_rcv c_del].
           rewrite ltb_S_ne; [reflexivity|]. intro X. apply N1. assert (Y := Hsd Hi). rewrite X in Y. rewrite Y. reflexivity.
        -- rewrite !ltb_S_ne; [reflexivity| |congruence].
           intro X. apply N1. assert (Y := Hsd Hi). rewrite X in Y. rewrite Y. reflexivity.
    + intros c' Hc'. rewrite chan_of_post, cget_post. cbn [post_on].
      destruct (chan_dec (ch (src n)) c') as [X|_]; [exfalso; apply (Hc' _ (Hsrc Hn)); auto|].
      destruct (chan_dec (ch n) c') as [X|_]; [exfalso; apply (Hc' _ Hn); auto|].
      apply Ot. exact Hc'.
Qed.

Lemma W_priv_mem i fs : r_mem (W i fs false) = r_mem (rr i).
Proof. reflexivity. Qed.

Lemma mark_snoc2_snd l x y : mark (l ++ [x; Some y]) (S (length l)) = l ++ [x; Some (done_of y)].
Proof.
  replace (l ++ [x; Some y]) with ((l ++ [x]) ++ [Some y]) by (rewrite <- app_assoc; reflexivity).
  replace (S (length l)) with (length (l ++ [x])) by (rewrite app_length; cbn [length]; lia).
  rewrite mark_snoc, <- app_assoc. reflexivity.
Qed.
Lemma mark_snoc2_fst l x y : mark (l ++ [Some x; y]) (length l) = l ++ [Some (done_of x); y].
Proof.
  replace (l ++ [Some x; y]) with ((l ++ [Some x]) ++ [y]) by (rewrite <- app_assoc; reflexivity).
  rewrite mark_app by (rewrite app_length; cbn [length]; lia). rewrite mark_snoc, <- app_assoc. reflexivity.
Qed.

(** phase 2: the library has read the first [n] send buffers *)
Definition read_n (n : nat) (t : gst) : Prop :=
  length (g_ranks t) = P /\
  (forall i, i < P -> nth_error (g_ranks t) i = Some (W i (Nat.ltb i n && i_eager I (na i)) false)) /\
  (forall i, i < P -> chan_of t (ch i) =
     Cst (c_snd (chan_of s (ch i)) ++ [se i (if Nat.ltb i n then Some (o_dat (oa i)) else None)])
         (c_rcv (chan_of s (ch i)) ++ [po (dst i)]) (del i)) /\
  (forall c', (forall i, i < P -> c' <> ch i) -> chan_of t c' = chan_of s c').

Lemma phase2 n : n <= P -> exists tr t, exec (Some s) tr (Some t) /\ read_n n t.
Proof.
  induction n as [|n IH]; intro L.
  - destruct (phase1 (le_n P)) as (tr & t & E & Lt & Nt & Ct & Ot). exists tr, t. split; [exact E|].
    split; [exact Lt|]. split; [|split; [|exact Ot]].
    + intros i Hi. rewrite (Nt i Hi), (proj2 (Nat.ltb_lt _ _) Hi). reflexivity.
    + intros i Hi. rewrite (Ct i Hi), (proj2 (Nat.ltb_lt _ _) Hi), (proj2 (Nat.ltb_lt _ _) (Hdst Hi)). reflexivity.
  - destruct IH as (tr & t & E & Lt & Nt & Ct & Ot); [lia|]. assert (Hn : n < P) by lia.
    destruct (H _ (rr_nth Hn)) as (Pg & Rd & Rq & (Oa & Wa) & Hb & Nab).
    assert (QS : del n = length (c_snd (chan_of s (ch n)))) by apply (Hq Hn).
    destruct (pw_exists (xf I (ch n) (se n None)) (g_ranks t)) as [l' PW].
    eassert (X : gstep t (LXmit (ch n) (del n)) = Some ([], Some (Gst l' _))).
    { eapply xmit_intro with (e := se n None) (r := W n false false) (o := oa n).
      - rewrite (Ct n Hn). cbn [c_snd]. rewrite Nat.ltb_irrefl, QS. apply nth_error_snoc_eq.
      - assert (Y := Nt n Hn). rewrite Nat.ltb_irrefl in Y. exact Y.
      - reflexivity.
      - exact Oa.
      - exact PW.
      - reflexivity. }
    eexists _, _. split; [eapply exec_app; [exact E|econstructor; [exact X|constructor]]|].
    cbn [se s_cnt s_buf s_ty s_req].
    split; [cbn [g_ranks]; rewrite (pointwise_length PW); exact Lt|]. split; [|split].
    + intros i Hi. cbn [g_ranks]. rewrite (PW i), (Nt i Hi). cbn [option_map]. f_equal.
      unfold xf. change (ch_src (ch n)) with n. cbn [se s_cnt s_req]. destruct (Nat.eqb_spec i n) as [->|N].
      * rewrite ltb_S_eq, Nat.ltb_irrefl, andb_true_r. cbn [andb]. destruct (i_eager I (na n)); [|reflexivity].
        unfold bmark, W. cbn [r_mem r_act r_priv r_prog]. unfold q at 2. rewrite mark_snoc2_snd. reflexivity.
      * rewrite andb_false_r, ltb_S_ne by exact N. reflexivity.
    + intros i Hi. rewrite chan_of_cset. destruct (chan_dec (ch n) (ch i)) as [Ec|Nc].
      * apply ch_inj in Ec. subst i. rewrite (Ct n Hn), ltb_S_eq. cbn [c_snd c_rcv c_del]. rewrite QS, upd_snoc, <- QS.
        unfold na at 2. rewrite firstn_all. reflexivity.
      * rewrite ltb_S_ne by congruence. apply Ct. exact Hi.
    + intros c' Hc'. rewrite chan_of_cset. destruct (chan_dec (ch n) c') as [Ec|_]; [exfalso; apply (Hc' _ Hn); auto|].
      apply Ot. exact Hc'.
Qed.

(** phase 3: the first [n] messages have been delivered *)
Definition delivered_n (n : nat) (t : gst) : Prop :=
  length (g_ranks t) = P /\
  (forall i, i < P -> nth_error (g_ranks t) i = Some (W i (i_eager I (na i) || Nat.ltb i n) (Nat.ltb (src i) n))) /\
  (forall i, i < P -> chan_of t (ch i) =
     Cst (c_snd (chan_of s (ch i)) ++ [se i (Some (o_dat (oa i)))])
         (c_rcv (chan_of s (ch i)) ++ [po (dst i)]) (if Nat.ltb i n then S (del i) else del i)) /\
  (forall c', (forall i, i < P -> c' <> ch i) -> chan_of t c' = chan_of s c').

Lemma phase3 n : n <= P -> exists tr t, exec (Some s) tr (Some t) /\ delivered_n n t.
Proof.
  induction n as [|n IH]; intro L.
  - destruct (phase2 (le_n P)) as (tr & t & E & Lt & Nt & Ct & Ot). exists tr, t. split; [exact E|].
    split; [exact Lt|]. split; [|split; [|exact Ot]].
    + intros i Hi. rewrite (Nt i Hi), (proj2 (Nat.ltb_lt _ _) Hi). cbn [andb Nat.ltb Nat.leb]. rewrite orb_false_r. reflexivity.
    + intros i Hi. rewrite (Ct i Hi), (proj2 (Nat.ltb_lt _ _) Hi). reflexivity.
  - destruct IH as (tr & t & E & Lt & Nt & Ct & Ot); [lia|]. assert (Hn : n < P) by lia.
    assert (QS : del n = length (c_snd (chan_of s (ch n)))) by apply (Hq Hn).
    assert (QR : del n = length (c_rcv (chan_of s (ch n)))) by apply (Hq Hn).
    set (e := se n (Some (o_dat (oa n)))). set (p := po (dst n)).
    destruct (pw_exists (mf I (ch n) e p (o_dat (oa n))) (g_ranks t)) as [l' PW].
    eassert (X : gstep t (LMatch (ch n)) = Some ([EvRecv (ch n) (q_buf p) (o_dat (oa n))], Some (Gst l' _))).
    { eapply match_intro with (e := e).
      - rewrite (Ct n Hn), Nat.ltb_irrefl. cbn [c_snd c_del]. rewrite QS. apply nth_error_snoc_eq.
      - rewrite (Ct n Hn), Nat.ltb_irrefl. cbn [c_rcv c_del]. rewrite QR. apply nth_error_snoc_eq.
      - reflexivity.
      - unfold fits. cbn [e p se po s_ty q_ty q_cnt]. rewrite (Hsd Hn), mty_eqb_refl. cbn [andb].
        apply Nat.leb_le. exact (proj2 (Hlen Hn)).
      - exact PW.
      - reflexivity. }
    eexists _, _. split; [eapply exec_app; [exact E|econstructor; [exact X|constructor]]|].
    split; [cbn [g_ranks]; rewrite (pointwise_length PW); exact Lt|]. split; [|split].
    + intros i Hi. cbn [g_ranks]. rewrite (PW i), (Nt i Hi). cbn [option_map]. f_equal.
      unfold mf. change (ch_src (ch n)) with n. change (ch_dst (ch n)) with (dst n).
      cbn [e p se po s_cnt s_req q_req q_buf].
      assert (STEP1 : (if Nat.eqb i (dst n) then bmark (q (dst n)) (bdel (b (dst n)) (o_dat (oa n)) (W i (i_eager I (na i) || Nat.ltb i n) (Nat.ltb (src i) n)))
                else W i (i_eager I (na i) || Nat.ltb i n) (Nat.ltb (src i) n)) = W i (i_eager I (na i) || Nat.ltb i n) (Nat.ltb (src i) (S n))).
      { destruct (Nat.eqb_spec i (dst n)) as [->|N].
        - rewrite (Hsd Hn), ltb_S_eq, Nat.ltb_irrefl. unfold bmark, bdel, W. cbn [r_mem r_act r_priv r_prog].
          unfold q at 1. rewrite mark_snoc2_fst, (Hsd Hn). reflexivity.
        - rewrite ltb_S_ne; [reflexivity|]. intro Y. apply N. rewrite <- Y, (Hds Hi). reflexivity. }
      rewrite STEP1. destruct (Nat.eqb_spec i n) as [->|N].
      * rewrite ltb_S_eq, Nat.ltb_irrefl, orb_false_r, orb_true_r, andb_true_r.
        destruct (i_eager I (na n)); cbn [negb]; [reflexivity|].
        unfold bmark, W. cbn [r_mem r_act r_priv r_prog]. unfold q at 1. rewrite mark_snoc2_snd. reflexivity.
      * rewrite andb_false_r, (@ltb_S_ne i n N). reflexivity.
    + intros i Hi. rewrite chan_of_cset. destruct (chan_dec (ch n) (ch i)) as [Ec|Nc].
      * apply ch_inj in Ec. subst i. rewrite (Ct n Hn), ltb_S_eq, Nat.ltb_irrefl. reflexivity.
      * rewrite ltb_S_ne by congruence. apply Ct. exact Hi.
    + intros c' Hc'. rewrite chan_of_cset. destruct (chan_dec (ch n) c') as [Ec|_]; [exfalso; apply (Hc' _ Hn); auto|].
      apply Ot. exact Hc'.
Qed.

Lemma upd_snoc2_fst {A} (l : list A) x y z : upd (l ++ [x; y]) (length l) z = l ++ [z; y].
Proof. induction l; cbn; congruence. Qed.
Lemma upd_snoc2_snd {A} (l : list A) x y z : upd (l ++ [x; y]) (S (length l)) z = l ++ [x; z].
Proof. induction l; cbn in *; congruence. Qed.

Lemma solo_wait2 i : solo (W i true true)
  (Rst (deliver (r_mem (rr i)) (b i) (o_dat (oa (src i)))) (r_act (rr i) ++ [None; None]) (with_reqs (r_priv (rr i)) []) (k i)).
Proof.
  eapply solo_trans.
  - apply solo_one with (r1 := Rst (deliver (r_mem (rr i)) (b i) (o_dat (oa (src i)))) (r_act (rr i) ++ [None; None])
       (with_reqs (r_priv (rr i)) [q i; S (q i)]) (set_reqs [] (k i))).
    intros. unfold rank_step. unfold W. cbn [r_prog r_act r_mem r_priv]. fold (q i).
    cbn [nodupb existsb]. destruct (Nat.eqb_spec (q i) (S (q i))) as [X|_]; [lia|]. cbn [orb negb andb forallb].
    assert (A1 : forall x y, nth_error (r_act (rr i) ++ [Some x; y]) (q i) = Some (Some x)).
    { intros. unfold q. rewrite nth_error_app2 by lia. rewrite Nat.sub_diag. reflexivity. }
    assert (A2 : forall x y, nth_error (r_act (rr i) ++ [y; Some x]) (S (q i)) = Some (Some x)).
    { intros. unfold q. rewrite nth_error_app2 by lia. replace (S (length (r_act (rr i))) - length (r_act (rr i))) with 1 by lia. reflexivity. }
    unfold is_active, is_done. rewrite A1, A2. cbn [a_done andb]. unfold forget. cbn [fold_left].
    unfold q. rewrite upd_snoc2_fst, upd_snoc2_snd. reflexivity.
  - exact (@solo_set_reqs V (Rst _ _ _ _) [] (k i) eq_refl).
Qed.

Theorem exchange_rule : reachable I s ->
  exists s', leads I s s' /\ length (g_ranks s') = P /\
    (forall i r, nth_error (g_ranks s) i = Some r -> exists r', nth_error (g_ranks s') i = Some r' /\
       assigned r (b i) (o_dat (oa (src i)) ++ skipn (length (o_dat (oa (src i)))) (o_dat (ob i))) (k i) r') /\
    (forall i, i < P -> quiet s' (ch i)) /\
    (forall c', (forall i, i < P -> c' <> ch i) -> chan_of s' c' = chan_of s c').
Proof.
  intro R. destruct (phase3 (le_n P)) as (tr & t & E & Lt & Nt & Ct & Ot).
  assert (Nt' : forall i, i < P -> nth_error (g_ranks t) i = Some (W i true true)).
  { intros i Hi. rewrite (Nt i Hi), (proj2 (Nat.ltb_lt _ _) Hi), (proj2 (Nat.ltb_lt _ _) (Hsrc Hi)), orb_true_r. reflexivity. }
  destruct (@exec_solo_all V I (fun i _ => Rst (deliver (r_mem (rr i)) (b i) (o_dat (oa (src i)))) (r_act (rr i) ++ [None; None])
     (with_reqs (r_priv (rr i)) []) (k i)) t) as (tr2 & l & E2 & PW).
  { intros i r Er. assert (Hi : i < P) by (rewrite <- Lt; apply nth_error_Some; congruence).
    rewrite (Nt' i Hi) in Er. inversion Er; subst r. apply solo_wait2. }
  exists (Gst l (g_chans t)). split; [eapply leads_intro; [exact R|eapply exec_app; [exact E|exact E2]]|].
  split; [cbn [g_ranks]; rewrite (pointwise_length PW); exact Lt|]. split; [|split].
  - intros i r Er. assert (Hi : i < P) by (apply nth_error_Some; congruence).
    eexists. split; [exact (pw_nth i PW (Nt' i Hi))|].
    assert (Rr : rr i = r) by (assert (Y := rr_nth Hi); congruence). rewrite Rr.
    destruct (H _ Er) as (Pg & Rd & Rq & Ha & (Ob & Wb) & Nab).
    split; [reflexivity|]. split; [cbn [r_priv]; unfold with_reqs; rewrite <- Rq; destruct (r_priv r); reflexivity|].
    split.
    + intro x. cbn [r_mem]. destruct (Nat.eqb_spec (b i) x) as [<-|Nx].
      * rewrite objat_deliver_eq, Ob. reflexivity.
      * apply objat_deliver_ne. exact Nx.
    + intro x. unfold writable. cbn [r_act]. rewrite existsb_app. cbn. rewrite orb_false_r. reflexivity.
  - intros i Hi. assert (Y := Ct i Hi). rewrite (proj2 (Nat.ltb_lt _ _) Hi) in Y.
    unfold quiet. change (chan_of (Gst l (g_chans t)) (ch i)) with (chan_of t (ch i)). rewrite Y. cbn [c_snd c_rcv c_del].
    rewrite !app_length. cbn [length]. destruct (Hq Hi) as [Q1 Q2]. unfold del. lia.
  - intros c' Hc'. exact (Ot c' Hc').
Qed.
End Exchange.
