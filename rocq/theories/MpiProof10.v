(** * MpiProof10: the wrappers that do not do what they are for. *)
From Coq Require Import List Arith Bool Lia.
From Verif Require Import Base MpiMap MpiModel MpiProof MpiProof2 MpiProof3 MpiProof4 MpiProof5 MpiSpec MpiProof6 MpiProof7 MpiProof8.
Import ListNotations.
Set Implicit Arguments.

Section Refute.
Variable V : Type.
Variable I : impl V.
Notation rst := (rst V).
Notation gst := (gst V).
Notation gstep := (gstep I).
Notation exec := (exec I).

Lemma err_fails (s : gst) i r r' :
  reachable I s -> nth_error (g_ranks s) i = Some r -> solo r r' ->
  (forall P i ns nr, rank_step P i ns nr r' = OErr V) -> fails I s.
Proof.
  intros R E S X. destruct (exec_solo I S s i E) as [tr E1].
  eapply fails_intro; [exact R|]. eapply exec_app; [exact E1|].
  change (@nil (event V)) with (@nil (event V) ++ []). apply exec_cons with (l := LRank i) (s1 := None); [|constructor].
  cbn [MpiModel.gstep g_ranks]. rewrite (@nth_error_upd_eq _ _ _ _ _ E), X. reflexivity.
Qed.

Lemma err_fails_step (s : gst) i r r1 p r2 :
  reachable I s -> nth_error (g_ranks s) i = Some r ->
  rank_step (length (g_ranks s)) i (nsend s) (nrecv s) r = OGo r1 p -> solo r1 r2 ->
  (forall P i ns nr, rank_step P i ns nr r2 = OErr V) -> fails I s.
Proof.
  intros R E S S2 X. assert (E1 := step_rank I s i E S).
  eapply leads_fails; [exact R|eapply leads_intro; [exact R|exact E1]|].
  eapply err_fails; [eapply reachable_exec; [exact R|exact E1]| |exact S2|exact X].
  cbn [g_ranks]. exact (@nth_error_upd_eq _ _ _ _ _ E).
Qed.

(** ** Receiving a scalar *)

Lemma fresh (s : gst) i r : reachable I s -> nth_error (g_ranks s) i = Some r ->
  writable r (length (r_mem r)) = true.
Proof.
  intros R E. apply fresh_writable; [|apply objat_oob]. eapply iv_r; [|exact E]. apply reachable_inv. exact R.
Qed.

Lemma solo_free_snoc m l pr o k (r : rst) : writable r (length m) = true -> r_act r = l ->
  solo (Rst (m ++ [Some o]) (l ++ [None]) pr (Free (length m) k)) (@Rst V (m ++ [None]) (l ++ [None]) pr k).
Proof.
  intros W A. apply solo_one. intros. unfold rank_step. cbn [r_prog r_mem]. rewrite objat_snoc.
  subst l. rewrite writable_snoc_none, W. unfold with_mem. cbn [r_act r_priv]. rewrite upd_snoc. reflexivity.
Qed.

Theorem send_recv_scalar_rule (s : gst) i j ri rj c tag t v b ob ki kj :
  reachable I s ->
  nth_error (g_ranks s) i = Some ri -> nth_error (g_ranks s) j = Some rj -> i <> j ->
  ready ri c -> ready rj c -> quiet s (c, i, j, tag) ->
  r_prog ri = comm_Send_scalar t v j tag ki -> r_prog rj = comm_Recv_scalar b i tag kj ->
  holds rj b ob -> supported t -> o_ty ob = t -> 0 < length (o_dat ob) ->
  exists s', leads I s s' /\ length (g_ranks s') = length (g_ranks s) /\
    (exists ri', nth_error (g_ranks s') i = Some ri' /\ continues ri ki ri') /\
    (exists rj', nth_error (g_ranks s') j = Some rj' /\ continues rj kj rj') /\
    (forall x, x <> i -> x <> j -> nth_error (g_ranks s') x = nth_error (g_ranks s) x) /\
    quiet s' (c, i, j, tag) /\ (forall c', c' <> (c, i, j, tag) -> chan_of s' c' = chan_of s c').
Proof.
  intros R Ei Ej N (Ii & Ci & C0) (Ij & Cj & _) Q Pi Pj (Ob & Wb) St Ty L0.
  destruct (supported_type St) as [m G].
  assert (Wi := fresh i R Ei). assert (Wj := fresh j R Ej).
  set (ri1 := with_mem ri (r_mem ri ++ [Some (Obj t [v])])
      (Isend c (length (r_mem ri)) 1 m j tag (fun q => Wait [q] (Free (length (r_mem ri)) ki)))).
  assert (Si : solo ri ri1).
  { eapply solo_trans; [exact (@solo_get_comm _ ri _ Pi)|]. rewrite Ci.
    apply solo_one. intros. unfold rank_step, by_value. cbn [with_prog r_prog]. unfold with_type. rewrite G. reflexivity. }
  set (rj1 := with_mem rj (r_mem rj ++ [Some ob])
      (Irecv c (length (r_mem rj)) 1 m i tag (fun q => Wait [q] (Free (length (r_mem rj)) kj)))).
  assert (Sj : solo rj rj1).
  { eapply solo_trans; [exact (@solo_get_comm _ rj _ Pj)|]. rewrite Cj.
    eapply solo_trans; [eapply solo_read; [reflexivity|exact Ob|exact (writable_readable _ _ Wb)]|]. cbv beta.
    apply solo_one. intros. unfold rank_step, by_value. cbn [with_prog r_prog]. unfold with_type. rewrite Ty, G. reflexivity. }
  destruct (@enter_two V I s i j ri rj _ _ Ei Ej N Si Sj) as [t1 E1]. set (s1 := Gst _ _) in E1.
  assert (N1 : forall x, nth_error (g_ranks s1) x = if Nat.eqb x i then Some ri1 else if Nat.eqb x j then Some rj1 else nth_error (g_ranks s) x)
    by (intro x; eapply nth_upd_two; eauto).
  assert (Ei1 := N1 i). rewrite Nat.eqb_refl in Ei1.
  assert (Ej1 := N1 j). rewrite Nat.eqb_refl in Ej1. destruct (Nat.eqb_spec j i) as [X|_]; [congruence|].
  destruct (@transfer_ok V I s1 i j ri1 rj1 c tag (length (r_mem ri)) 1 (length (r_mem rj)) 1 m (Obj t [v]) ob
     (fun q => Wait [q] (Free (length (r_mem ri)) ki)) (fun q => Wait [q] (Free (length (r_mem rj)) kj)) Ei1 Ej1 N C0 Ii Ij Q eq_refl eq_refl
     (objat_snoc _ _) (writable_readable _ _ Wi) (le_n _) (objat_snoc _ _) Wj L0 (le_n _))
    as (t2 & s2 & k & E2 & LL & Ei2 & Ej2 & No & Q2 & Ch).
  cbn [ri1 rj1 with_mem with_act r_mem r_act r_priv o_dat firstn] in Ei2, Ej2.
  assert (DL : exists o', deliver (r_mem rj ++ [Some ob]) (length (r_mem rj)) [v] = r_mem rj ++ [Some o']).
  { unfold deliver. rewrite objat_snoc. eexists. apply upd_snoc. }
  destruct DL as [o' DL]. rewrite DL in Ej2.
  destruct (@enter_two V I s2 i j _ _ _ _ Ei2 Ej2 N
     (solo_trans (@solo_wait_snoc V _ _ (done_of (sreq (length (r_mem ri)) 1 (c, i, j, tag) k)) _ _ eq_refl) (solo_free_snoc (r_mem ri) (r_priv ri) (Obj t [v]) ki ri Wi eq_refl))
     (solo_trans (@solo_wait_snoc V _ _ (done_of (rreq (length (r_mem rj)) 1 (c, i, j, tag) k)) _ _ eq_refl) (solo_free_snoc (r_mem rj) (r_priv rj) o' kj rj Wj eq_refl)))
    as [t3 E3].
  set (s3 := Gst _ _) in E3.
  assert (N3 := fun x => @nth_upd_two V (g_ranks s2) i j _ _ (Rst (r_mem ri ++ [None]) (r_act ri ++ [None]) (r_priv ri) ki)
     (Rst (r_mem rj ++ [None]) (r_act rj ++ [None]) (r_priv rj) kj) x Ei2 Ej2 N).
  exists s3. split; [eapply leads_intro; [exact R|eapply exec_app; [exact E1|eapply exec_app; [exact E2|exact E3]]]|].
  split; [cbn [s3 g_ranks]; rewrite !upd_length, LL; cbn [s1 g_ranks]; rewrite !upd_length; reflexivity|].
  split; [|split; [|split; [|split]]].
  - eexists. split; [cbn [s3 g_ranks]; rewrite N3, Nat.eqb_refl; reflexivity|].
    split; [reflexivity|]. split; [reflexivity|]. split; intro x; [apply objat_snoc_none|apply writable_snoc_none].
  - eexists. split; [cbn [s3 g_ranks]; rewrite N3, Nat.eqb_refl; destruct (Nat.eqb_spec j i); [congruence|reflexivity]|].
    split; [reflexivity|]. split; [reflexivity|]. split; intro x; [apply objat_snoc_none|apply writable_snoc_none].
  - intros x Xi Xj. cbn [s3 g_ranks]. rewrite N3. destruct (Nat.eqb_spec x i); [congruence|]. destruct (Nat.eqb_spec x j); [congruence|].
    rewrite (No x Xi Xj), N1. destruct (Nat.eqb_spec x i); [congruence|]. destruct (Nat.eqb_spec x j); [congruence|]. reflexivity.
  - exact Q2.
  - exact Ch.
Qed.

(** ** Receiving a std::vector *)

Theorem recv_std_fails (s : gst) j r b src tag o k :
  reachable I s -> nth_error (g_ranks s) j = Some r -> r_prog r = comm_Recv_std b src tag k -> holds r b o -> fails I s.
Proof.
  intros R E Pg (O & W). eapply err_fails with (r' := with_mem r (r_mem r ++ [Some o]) (Crash V)); [exact R|exact E| |reflexivity].
  eapply solo_trans; [exact (@solo_get_comm _ r _ Pg)|].
  eapply solo_trans; [eapply solo_read; [reflexivity|exact O|exact (writable_readable _ _ W)]|]. cbv beta.
  apply solo_one. intros. reflexivity.
Qed.

(** ** Non-blocking transfers of scalars *)

Lemma free_in_use m l pr a k x : a_buf x = a -> forall P i ns nr, rank_step P i ns nr (Rst m (l ++ [Some x]) pr (Free a k)) = OErr V.
Proof.
  intros B P i ns nr. unfold rank_step. cbn [r_prog r_mem]. destruct (objat m a); [|reflexivity].
  unfold writable. cbn [r_act]. rewrite existsb_app. cbn [existsb uses]. rewrite B, Nat.eqb_refl.
  rewrite orb_true_r. reflexivity.
Qed.

Theorem isend_scalar_fails (s : gst) i r c t v dst tag k :
  reachable I s -> nth_error (g_ranks s) i = Some r -> ready r c -> dst < length (g_ranks s) -> supported t ->
  r_prog r = comm_Isend_scalar t v dst tag k -> fails I s.
Proof.
  intros R E (Hi & Hc & C0) Ld St Pg. destruct (supported_type St) as [m G].
  assert (W := fresh i R E).
  set (r1 := with_mem r (r_mem r ++ [Some (Obj t [v])]) (Isend c (length (r_mem r)) 1 m dst tag
      (fun q => set_reqs (p_reqs (r_priv r) ++ [q]) (Free (length (r_mem r)) k)))).
  assert (S : solo r r1).
  { eapply solo_trans; [exact (@solo_get_comm _ r _ Pg)|]. rewrite Hc.
    eapply solo_trans; [apply solo_one; intros; unfold rank_step, by_value; cbn [with_prog r_prog]; unfold with_type; rewrite G; reflexivity|].
    unfold push_req, get_reqs. eapply solo_trans; [eapply solo_loc; reflexivity|]. constructor. }
  destruct (exec_solo I S s i E) as [tr E1].
  eapply leads_fails; [exact R|eapply leads_intro; [exact R|exact E1]|].
  eapply err_fails_step with (i := i) (r := r1).
  - eapply reachable_exec; eauto.
  - exact (@nth_error_upd_eq _ _ _ _ _ E).
  - unfold rank_step. cbn [r1 with_mem r_prog r_mem r_priv r_act g_ranks]. rewrite objat_snoc.
    fold r1. change (readable r1 (length (r_mem r))) with (readable r (length (r_mem r))).
    rewrite (writable_readable _ _ W), Hi, upd_length, (proj2 (Nat.ltb_lt _ _) Ld).
    destruct (Nat.eqb_spec c 0); [congruence|]. cbn [o_dat length Nat.leb andb negb]. reflexivity.
  - eapply solo_set_reqs. reflexivity.
  - cbn [with_act r_mem r_act r_priv r1 with_mem]. apply free_in_use. reflexivity.
Qed.

Theorem irecv_scalar_fails (s : gst) j r c src tag b o k :
  reachable I s -> nth_error (g_ranks s) j = Some r -> ready r c -> src < length (g_ranks s) ->
  holds r b o -> supported (o_ty o) -> 0 < length (o_dat o) ->
  r_prog r = comm_Irecv_scalar b src tag k -> fails I s.
Proof.
  intros R E (Hi & Hc & C0) Ld (O & Wo) St L0 Pg. destruct (supported_type St) as [m G].
  assert (W := fresh j R E).
  set (r1 := with_mem r (r_mem r ++ [Some o]) (Irecv c (length (r_mem r)) 1 m src tag
      (fun q => set_reqs (p_reqs (r_priv r) ++ [q]) (Free (length (r_mem r)) k)))).
  assert (S : solo r r1).
  { eapply solo_trans; [exact (@solo_get_comm _ r _ Pg)|]. rewrite Hc.
    eapply solo_trans; [eapply solo_read; [reflexivity|exact O|exact (writable_readable _ _ Wo)]|]. cbv beta.
    eapply solo_trans; [apply solo_one; intros; unfold rank_step, by_value; cbn [with_prog r_prog]; unfold with_type; rewrite G; reflexivity|].
    unfold push_req, get_reqs. eapply solo_trans; [eapply solo_loc; reflexivity|]. constructor. }
  destruct (exec_solo I S s j E) as [tr E1].
  eapply leads_fails; [exact R|eapply leads_intro; [exact R|exact E1]|].
  eapply err_fails_step with (i := j) (r := r1).
  - eapply reachable_exec; eauto.
  - exact (@nth_error_upd_eq _ _ _ _ _ E).
  - unfold rank_step. cbn [r1 with_mem r_prog r_mem r_priv r_act g_ranks]. rewrite objat_snoc.
    fold r1. change (writable r1 (length (r_mem r))) with (writable r (length (r_mem r))).
    rewrite W, Hi, upd_length, (proj2 (Nat.ltb_lt _ _) Ld), (proj2 (Nat.leb_le _ _) L0).
    destruct (Nat.eqb_spec c 0); [congruence|]. cbn [andb negb]. reflexivity.
  - eapply solo_set_reqs. reflexivity.
  - cbn [with_act r_mem r_act r_priv r1 with_mem]. apply free_in_use. reflexivity.
Qed.

(** ** Non-blocking send of a monolish::vector *)

Lemma solo_isend_mono (r : rst) a dst tag k c o m rq : r_prog r = comm_Isend_mono a dst tag k ->
  p_comm (r_priv r) = c -> objat (r_mem r) a = Some o -> readable r a = true -> 0 < length (o_dat o) ->
  get_type (o_ty o) = Some m -> p_reqs (r_priv r) = rq ->
  solo r (with_prog r (match rq with [] => Crash V
    | _ => Isend c a (length (o_dat o)) m dst tag (fun q => set_reqs (removelast rq ++ [q]) k) end)).
Proof.
  intros E C O R L G Q. eapply solo_trans; [exact (@solo_get_comm _ r _ E)|]. rewrite C.
  eapply solo_trans; [eapply solo_read; [reflexivity|exact O|exact R]|]. cbv beta.
  destruct (Nat.eqb_spec (length (o_dat o)) 0); [lia|]. unfold with_type. rewrite G.
  unfold back_req, get_reqs. eapply solo_trans; [eapply solo_loc; reflexivity|].
  cbn [with_prog r_priv]. rewrite Q. constructor.
Qed.

Theorem isend_mono_fails (s : gst) i r a dst tag o k :
  reachable I s -> nth_error (g_ranks s) i = Some r -> holds r a o -> supported (o_ty o) ->
  0 < length (o_dat o) -> p_reqs (r_priv r) = [] ->
  r_prog r = comm_Isend_mono a dst tag k -> fails I s.
Proof.
  intros R E (O & W) St L Q Pg. destruct (supported_type St) as [m G].
  eapply err_fails; [exact R|exact E|exact (@solo_isend_mono r a dst tag k _ o m [] Pg eq_refl O (writable_readable _ _ W) L G Q)|].
  reflexivity.
Qed.

(** a rank whose receive on [b] is not in the list it waits for never gets past the next access to [b] *)
Definition stuck (b q1 : nat) (K : obj V -> prog V) (r : rst) : Prop :=
  (r_prog r = Wait [q1] (set_reqs [] (Read b K)) \/ r_prog r = set_reqs [] (Read b K) \/ r_prog r = Read b K) /\
  exists q0 x, q0 <> q1 /\ nth_error (r_act r) q0 = Some (Some x) /\ a_buf x = b /\ a_snd x = false.

Lemma stuck_mark b q1 K q (r : rst) : stuck b q1 K r -> stuck b q1 K (bmark q r).
Proof.
  intros [Pg (q0 & x & N & E & B & S)]. split; [exact Pg|]. cbn [bmark r_act].
  exists q0. rewrite nth_error_mark, E. destruct (Nat.eqb q0 q); cbn [option_map].
  - exists (done_of x). auto.
  - exists x. auto.
Qed.
Lemma stuck_del b q1 K a d (r : rst) : stuck b q1 K r -> stuck b q1 K (bdel a d r).
Proof. intro H. exact H. Qed.

Lemma stuck_rank b q1 K P i ns nr (r r' : rst) p : stuck b q1 K r -> rank_step P i ns nr r = OGo r' p -> stuck b q1 K r'.
Proof.
  intros [Pg (q0 & x & N & E & B & S)] St. unfold rank_step in St. destruct Pg as [Pg|[Pg|Pg]]; rewrite Pg in St.
  - destruct (nodupb [q1] && forallb (is_active (r_act r)) [q1]); [|discriminate].
    destruct (forallb (is_done (r_act r)) [q1]); [|discriminate]. inversion St; subst. split; [right; left; reflexivity|].
    exists q0, x. split; [exact N|]. split; [|auto]. cbn [with_act r_act forget fold_left]. rewrite nth_error_upd.
    destruct (Nat.eqb_spec q1 q0); [congruence|exact E].
  - inversion St; subst. split; [right; right; reflexivity|]. exists q0, x. auto.
  - exfalso. destruct (objat (r_mem r) b); [|discriminate].
    destruct (readable r b) eqn:Rd; [|discriminate]. exact (@readable_unreceived V r b q0 x Rd E S B).
Qed.

Lemma stuck_step b q1 K i (s s' : gst) l ev r : nth_error (g_ranks s) i = Some r -> stuck b q1 K r ->
  gstep s l = Some (ev, Some s') -> exists r', nth_error (g_ranks s') i = Some r' /\ stuck b q1 K r'.
Proof.
  intros E St G. destruct l as [j|c k|c|].
  - apply rank_inv in G as (r0 & Er & r' & p & Sp & -> & ->). cbn [g_ranks]. destruct (Nat.eq_dec i j) as [<-|N].
    + exists r'. split; [exact (@nth_error_upd_eq _ _ _ _ _ E)|]. rewrite E in Er. inversion Er; subst. eapply stuck_rank; eauto.
    + exists r. split; [|exact St]. rewrite nth_error_upd. destruct (Nat.eqb_spec j i); [congruence|exact E].
  - apply xmit_inv in G as (e0 & ra & _ & _ & _ & _ & o & _ & PW & _). exists (xf I c e0 i r).
    split; [rewrite (PW i), E; reflexivity|]. unfold xf. destruct (i_eager I (s_cnt e0) && Nat.eqb i (ch_src c)); auto using stuck_mark.
  - apply match_inv in G as (e0 & p & d & _ & _ & _ & _ & _ & PW & _). exists (mf I c e0 p d i r).
    split; [rewrite (PW i), E; reflexivity|]. unfold mf.
    destruct (Nat.eqb i (ch_dst c)), (negb (i_eager I (s_cnt e0)) && Nat.eqb i (ch_src c)); auto using stuck_mark, stuck_del.
  - cbn [MpiModel.gstep] in G. destruct (coll_step I (g_ranks s)) as [[m|]|] eqn:CS; try discriminate. exfalso.
    unfold coll_step in CS. destruct (Nat.ltb 0 (length (g_ranks s)) && forallb (@in_coll V) (g_ranks s)) eqn:B; [|discriminate].
    apply andb_true_iff in B as [_ B]. rewrite forallb_forall in B.
    assert (X := B r (nth_error_In _ _ E)). unfold in_coll in X. destruct St as [[Pg|[Pg|Pg]] _]; rewrite Pg in X; discriminate.
Qed.

Lemma stuck_exec b q1 K i a0 tr b0 : exec a0 tr b0 -> forall s n r, a0 = Some s -> b0 = Some n ->
  nth_error (g_ranks s) i = Some r -> stuck b q1 K r -> exists r', nth_error (g_ranks n) i = Some r' /\ stuck b q1 K r'.
Proof.
  induction 1 as [x|s0 l e s1 t s2 G E IH]; intros s n r A B Er St; subst.
  - inversion B; subst. eauto.
  - inversion A; subst s0. destruct s1 as [s1|].
    + destruct (@stuck_step b q1 K i s s1 l e r Er St G) as (r1 & Er1 & St1). eapply IH; eauto.
    + inversion E.
Qed.

Theorem isend_mono_loses (s : gst) i r a b src dst tag tag' c oa ob K :
  reachable I s -> nth_error (g_ranks s) i = Some r -> ready r c -> p_reqs (r_priv r) = [] ->
  holds r a oa -> holds r b ob -> a <> b -> supported (o_ty oa) -> supported (o_ty ob) ->
  0 < length (o_dat oa) -> 0 < length (o_dat ob) -> src < length (g_ranks s) -> dst < length (g_ranks s) ->
  r_prog r = comm_Irecv_vec b src tag (comm_Isend_mono a dst tag' (comm_Waitall (Read b K))) ->
  forall n, outcome I s (Some n) -> exists r' q k', nth_error (g_ranks n) i = Some r' /\ r_prog r' = Wait [q] k'.
Proof.
  intros R E (Hin & Hc & Hc0) Rq (Oa & Wa) (Ob & Wb) Nab Sa Sb La Lb Ls Ld Pg n On.
  destruct (supported_type Sa) as [ma Ga]. destruct (supported_type Sb) as [mb Gb].
  set (chr := (c, src, i, tag)). set (chs := (c, i, dst, tag')). set (q := length (r_act r)).
  destruct (exec_solo I (@solo_irecv_vec V r b src tag _ c ob mb Pg Hc Ob (writable_readable _ _ Wb) Lb Gb) s i E) as [t1 E1].
  rewrite Rq in E1. cbn [app] in E1.
  set (r1 := with_prog r _) in E1. set (s1 := Gst _ _) in E1.
  assert (N1 : nth_error (g_ranks s1) i = Some r1) by exact (@nth_error_upd_eq _ _ _ _ _ E).
  assert (L1 : length (g_ranks s1) = length (g_ranks s)) by apply upd_length.
  set (xr := Areq b (length (o_dat ob)) false chr (nrecv s1 chr) false).
  set (r2 := Rst (r_mem r) (r_act r ++ [Some xr]) (r_priv r) (set_reqs [q] (comm_Isend_mono a dst tag' (comm_Waitall (Read b K))))).
  assert (S1 : rank_step (length (g_ranks s1)) i (nsend s1) (nrecv s1) r1 = OGo r2 (PRecv V chr (Posted b (length (o_dat ob)) mb q))).
  { unfold rank_step. cbn [r1 with_prog r_prog r_mem r_priv r_act]. rewrite Ob, Hin, L1.
    fold r1. change (writable r1 b) with (writable r b). rewrite Wb, Nat.leb_refl, (proj2 (Nat.ltb_lt _ _) Ls).
    destruct (Nat.eqb_spec c 0); [congruence|]. cbn [andb negb]. reflexivity. }
  assert (E2 := step_rank I s1 i N1 S1). cbn [g_ranks s1] in E2. rewrite upd_upd in E2.
  set (s2 := Gst _ _) in E2.
  assert (N2 : nth_error (g_ranks s2) i = Some r2) by exact (@nth_error_upd_eq _ _ _ _ _ E).
  set (r3 := Rst (r_mem r) (r_act r ++ [Some xr]) (with_reqs (r_priv r) [q])
       (Isend c a (length (o_dat oa)) ma dst tag' (fun q' => set_reqs [q'] (comm_Waitall (Read b K))))).
  assert (RD : readable r2 a = true).
  { unfold r2. rewrite readable_snoc, (writable_readable _ _ Wa). cbn [xr a_buf a_snd negb]. rewrite andb_true_r.
    destruct (Nat.eqb_spec b a); [congruence|reflexivity]. }
  assert (SO : solo r2 r3).
  { eapply solo_trans; [eapply solo_set_reqs; reflexivity|].
    exact (@solo_isend_mono (Rst (r_mem r) (r_act r ++ [Some xr]) (with_reqs (r_priv r) [q]) (comm_Isend_mono a dst tag' (comm_Waitall (Read b K))))
             a dst tag' _ c oa ma [q] eq_refl Hc Oa RD La Ga eq_refl). }
  destruct (exec_solo I SO s2 i N2) as [t3 E3]. cbn [g_ranks g_chans s2] in E3. rewrite upd_upd in E3.
  set (s3 := Gst _ _) in E3.
  assert (N3 : nth_error (g_ranks s3) i = Some r3) by exact (@nth_error_upd_eq _ _ _ _ _ E).
  assert (L3 : length (g_ranks s3) = length (g_ranks s)) by apply upd_length.
  set (xs := Areq a (length (o_dat oa)) true chs (nsend s3 chs) false).
  set (r4 := Rst (r_mem r) (r_act r ++ [Some xr; Some xs]) (with_reqs (r_priv r) [q]) (set_reqs [S q] (comm_Waitall (Read b K)))).
  assert (S3 : rank_step (length (g_ranks s3)) i (nsend s3) (nrecv s3) r3 =
     OGo r4 (PSend chs (Sent a (length (o_dat oa)) ma (S q) None) (o_dat oa))).
  { unfold rank_step. cbn [r3 r_prog r_mem r_priv r_act]. rewrite Oa. fold r3. change (readable r3 a) with (readable r2 a).
    rewrite RD, L3, Nat.leb_refl, (proj2 (Nat.ltb_lt _ _) Ld). cbn [with_reqs p_init]. rewrite Hin.
    destruct (Nat.eqb_spec c 0); [congruence|]. cbn [andb negb]. cbv zeta. fold chs. rewrite firstn_all.
    unfold r4, with_act. cbn [r3 r_mem r_priv]. rewrite <- app_assoc, app_length. cbn [length app].
    replace (length (r_act r) + 1) with (S q) by (unfold q; lia). reflexivity. }
  assert (E4 := step_rank I s3 i N3 S3). cbn [g_ranks g_chans s3] in E4. rewrite upd_upd in E4.
  set (s4 := Gst _ _) in E4.
  assert (N4 : nth_error (g_ranks s4) i = Some r4) by exact (@nth_error_upd_eq _ _ _ _ _ E).
  set (r5 := Rst (r_mem r) (r_act r ++ [Some xr; Some xs]) (with_reqs (r_priv r) [S q]) (Wait [S q] (set_reqs [] (Read b K)))).
  assert (SO5 : solo r4 r5).
  { eapply solo_trans; [eapply solo_set_reqs; reflexivity|].
    exact (@solo_waitall V (Rst (r_mem r) (r_act r ++ [Some xr; Some xs]) (with_reqs (r_priv r) [S q]) (comm_Waitall (Read b K))) (Read b K) eq_refl). }
  destruct (exec_solo I SO5 s4 i N4) as [t5 E5]. cbn [g_ranks g_chans s4] in E5. rewrite upd_upd in E5.
  set (s5 := Gst _ _) in E5.
  assert (N5 : nth_error (g_ranks s5) i = Some r5) by exact (@nth_error_upd_eq _ _ _ _ _ E).
  assert (EE := exec_app E1 (exec_app E2 (exec_app E3 (exec_app E4 E5)))).
  apply (@outcome_stable V I s _ s5 _ (reachable_inv R) EE) in On. destruct On as [[t6 E6] Fin].
  assert (St5 : stuck b (S q) K r5).
  { split; [left; reflexivity|]. exists q, xr. split; [lia|]. split; [|auto].
    cbn [r5 r_act]. unfold q. rewrite nth_error_app2 by lia. rewrite Nat.sub_diag. reflexivity. }
  destruct (@stuck_exec b (S q) K i _ _ _ E6 s5 n r5 eq_refl eq_refl N5 St5) as (r' & Er' & [Pr' (q0 & x & Nq & Ex & Bx & Sx)]).
  destruct Pr' as [Pr'|[Pr'|Pr']].
  - eauto.
  - exfalso. specialize (Fin (LRank i)). cbn [MpiModel.gstep] in Fin. rewrite Er' in Fin. unfold rank_step in Fin.
    rewrite Pr' in Fin. discriminate.
  - exfalso. specialize (Fin (LRank i)). cbn [MpiModel.gstep] in Fin. rewrite Er' in Fin. unfold rank_step in Fin.
    rewrite Pr' in Fin. destruct (objat (r_mem r') b); [|discriminate]. destruct (readable r' b); discriminate.
Qed.
End Refute.
