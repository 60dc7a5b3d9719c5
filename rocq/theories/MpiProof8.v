(** * MpiProof8: many messages, and the non-blocking exchange. *)
From Coq Require Import List Arith Bool Lia.
From Verif Require Import Base MpiMap MpiModel MpiProof MpiProof2 MpiProof3 MpiProof4 MpiProof5 MpiSpec MpiProof6 MpiProof7.
Import ListNotations.
Set Implicit Arguments.

Section Seq.
Variable V : Type.
Variable I : impl V.
Notation rst := (rst V).
Notation gst := (gst V).

Theorem send_recv_all_rule (l : list (nat * nat)) : forall (s : gst) i j ri rj c tag ki kj,
  reachable I s ->
  nth_error (g_ranks s) i = Some ri -> nth_error (g_ranks s) j = Some rj -> i <> j ->
  ready ri c -> ready rj c -> quiet s (c, i, j, tag) ->
  r_prog ri = send_all (map fst l) j tag ki -> r_prog rj = recv_all (map snd l) i tag kj ->
  NoDup (map snd l) ->
  (forall a b, In (a, b) l -> exists oa ob, holds ri a oa /\ holds rj b ob /\ supported (o_ty oa) /\
     o_ty oa = o_ty ob /\ 0 < length (o_dat oa) /\ length (o_dat oa) = length (o_dat ob)) ->
  exists s' ri' rj', leads I s s' /\ length (g_ranks s') = length (g_ranks s) /\
    nth_error (g_ranks s') i = Some ri' /\ continues ri ki ri' /\
    nth_error (g_ranks s') j = Some rj' /\ r_prog rj' = kj /\ r_priv rj' = r_priv rj /\
    (forall b, writable rj' b = writable rj b) /\
    (forall a b, In (a, b) l -> objat (r_mem rj') b = objat (r_mem ri) a) /\
    (forall b, ~ In b (map snd l) -> objat (r_mem rj') b = objat (r_mem rj) b) /\
    (forall x, x <> i -> x <> j -> nth_error (g_ranks s') x = nth_error (g_ranks s) x) /\
    quiet s' (c, i, j, tag) /\ (forall c', c' <> (c, i, j, tag) -> chan_of s' c' = chan_of s c').
Proof.
  induction l as [|[a b] l IH]; intros s i j ri rj c tag ki kj R Ei Ej N Ri Rj Q Pi Pj ND H.
  - exists s, ri, rj. cbn [map send_all recv_all fold_right] in Pi, Pj.
    split; [apply leads_refl|]. split; [reflexivity|]. split; [exact Ei|].
    split; [split; [exact Pi|]; split; [reflexivity|]; split; reflexivity|].
    split; [exact Ej|]. split; [exact Pj|]. split; [reflexivity|]. split; [reflexivity|].
    split; [intros ? ? []|]. split; [reflexivity|]. split; [reflexivity|]. split; [exact Q|reflexivity].
  - cbn [map send_all recv_all fold_right fst snd] in Pi, Pj, ND. inversion ND as [|? ? Nb ND']; subst.
    destruct (H a b (or_introl eq_refl)) as (oa & ob & (Oa & Wa) & (Ob & Wb) & St & Ty & L0 & LL).
    destruct (@send_recv_rule V I s i j ri rj c tag a b oa ob _ _ R Ei Ej N Ri Rj Q Pi Pj Oa (writable_readable _ _ Wa)
       (conj Ob Wb) St Ty) as (s1 & Ld & Len & (ri1 & Ei1 & Ci1) & (rj1 & Ej1 & Aj1) & No & Q1 & Ch); [lia|].
    rewrite LL, skipn_all, app_nil_r in Aj1.
    destruct Ci1 as (Pi1 & Vi1 & Mi1 & Wi1). destruct Aj1 as (Pj1 & Vj1 & Mj1 & Wj1).
    destruct (IH s1 i j ri1 rj1 c tag ki kj) as
      (s2 & ri2 & rj2 & Ld2 & Len2 & Ei2 & (Pi2 & Vi2 & Mi2 & Wi2) & Ej2 & Pj2 & Vj2 & Wj2 & Mj2 & Mo2 & No2 & Q2 & Ch2); auto.
    + eapply leads_reachable; eauto.
    + unfold ready in *. rewrite Vi1. exact Ri.
    + unfold ready in *. rewrite Vj1. exact Rj.
    + intros a' b' Hin. destruct (H a' b' (or_intror Hin)) as (oa' & ob' & (Oa' & Wa') & (Ob' & Wb') & X).
      exists oa', ob'. split; [split; [rewrite Mi1; exact Oa'|rewrite Wi1; exact Wa']|]. split; [|exact X].
      split; [|rewrite Wj1; exact Wb']. rewrite Mj1. destruct (Nat.eqb_spec b b') as [<-|]; [|exact Ob'].
      exfalso. apply Nb. apply in_map_iff. exists (a', b). auto.
    + exists s2, ri2, rj2. split; [eapply leads_trans; eauto|]. split; [congruence|]. split; [exact Ei2|].
      split; [split; [exact Pi2|split; [congruence|split; intro; [rewrite Mi2; apply Mi1|rewrite Wi2; apply Wi1]]]|].
      split; [exact Ej2|]. split; [exact Pj2|]. split; [congruence|]. split; [intro x; rewrite Wj2; apply Wj1|].
      split; [|split; [|split; [|split]]].
      * intros a' b' [Heq|Hin].
        -- inversion Heq; subst a' b'. rewrite (Mo2 b Nb), Mj1, Nat.eqb_refl, Ob, Oa. cbn. rewrite <- Ty. destruct oa; reflexivity.
        -- rewrite (Mj2 _ _ Hin). apply Mi1.
      * intros b' Hb. cbn [map] in Hb. rewrite Mo2 by (intro X; apply Hb; right; exact X). rewrite Mj1.
        destruct (Nat.eqb_spec b b') as [<-|]; auto. exfalso. apply Hb. left. reflexivity.
      * intros x X1 X2. rewrite (No2 x X1 X2). apply No; auto.
      * exact Q2.
      * intros c' X. rewrite (Ch2 c' X). apply Ch; exact X.
Qed.
End Seq.

Section Exchange.
Variable V : Type.
Variable I : impl V.
Notation rst := (rst V).
Notation gst := (gst V).
Notation gstep := (gstep I).
Notation exec := (exec I).

Definition with_reqs (p : priv) (l : list nat) : priv := Priv (p_rank p) (p_size p) (p_init p) (p_comm p) l.

Lemma solo_set_reqs (r : rst) l k : r_prog r = set_reqs l k ->
  solo r (Rst (r_mem r) (r_act r) (with_reqs (r_priv r) l) k).
Proof. intro E. apply solo_one. intros. unfold rank_step. rewrite E. reflexivity. Qed.

Lemma solo_irecv_vec (r : rst) a src tag k c o m : r_prog r = comm_Irecv_vec a src tag k ->
  p_comm (r_priv r) = c -> objat (r_mem r) a = Some o -> readable r a = true -> 0 < length (o_dat o) ->
  get_type (o_ty o) = Some m ->
  solo r (with_prog r (Irecv c a (length (o_dat o)) m src tag (fun q => set_reqs (p_reqs (r_priv r) ++ [q]) k))).
Proof.
  intros E C O R L G. eapply solo_trans; [exact (@solo_get_comm _ r _ E)|]. rewrite C.
  eapply solo_trans; [eapply solo_read; [reflexivity|exact O|exact R]|]. cbv beta.
  destruct (Nat.eqb_spec (length (o_dat o)) 0); [lia|]. unfold with_type. rewrite G.
  unfold push_req, get_reqs. eapply solo_trans; [eapply solo_loc; reflexivity|]. constructor.
Qed.

Lemma solo_isend_std (r : rst) a dst tag k c o m : r_prog r = comm_Isend_std a dst tag k ->
  p_comm (r_priv r) = c -> objat (r_mem r) a = Some o -> readable r a = true -> 0 < length (o_dat o) ->
  get_type (o_ty o) = Some m ->
  solo r (with_prog r (Isend c a (length (o_dat o)) m dst tag (fun q => set_reqs (p_reqs (r_priv r) ++ [q]) k))).
Proof.
  intros E C O R L G. eapply solo_trans; [exact (@solo_get_comm _ r _ E)|]. rewrite C.
  eapply solo_trans; [eapply solo_read; [reflexivity|exact O|exact R]|]. cbv beta.
  destruct (Nat.eqb_spec (length (o_dat o)) 0); [lia|]. unfold with_type. rewrite G.
  unfold push_req, get_reqs. eapply solo_trans; [eapply solo_loc; reflexivity|]. constructor.
Qed.

Lemma solo_waitall (r : rst) k : r_prog r = comm_Waitall k ->
  solo r (with_prog r (Wait (p_reqs (r_priv r)) (set_reqs [] k))).
Proof. intro E. exact (@solo_loc _ r _ E). Qed.

Lemma readable_snoc (r : rst) m x pr p a :
  readable (@Rst V m (r_act r ++ [Some x]) pr p) a = readable r a && negb (Nat.eqb (a_buf x) a && negb (a_snd x)).
Proof.
  unfold readable. cbn [r_act]. rewrite existsb_app. cbn. rewrite orb_false_r, negb_orb. reflexivity.
Qed.

(** one rank posts its receive and its send and enters MPI_Waitall *)
Lemma post_pair (t : gst) i r c tag a b src dst oa ob ma mb k :
  nth_error (g_ranks t) i = Some r ->
  r_prog r = comm_Irecv_vec b src tag (comm_Isend_std a dst tag (comm_Waitall k)) ->
  ready r c -> p_reqs (r_priv r) = [] -> holds r a oa -> holds r b ob -> a <> b ->
  get_type (o_ty oa) = Some ma -> get_type (o_ty ob) = Some mb ->
  0 < length (o_dat oa) -> 0 < length (o_dat ob) -> src < length (g_ranks t) -> dst < length (g_ranks t) ->
  let chr := (c, src, i, tag) in let chs := (c, i, dst, tag) in
  let q := length (r_act r) in
  exists tr, exec (Some t) tr (Some (Gst
    (upd (g_ranks t) i (Rst (r_mem r)
       (r_act r ++ [Some (Areq b (length (o_dat ob)) false chr (nrecv t chr) false);
                    Some (Areq a (length (o_dat oa)) true chs (nsend t chs) false)])
       (with_reqs (r_priv r) [q; S q]) (Wait [q; S q] (set_reqs [] k))))
    (apply_post (apply_post (g_chans t) (PRecv V chr (Posted b (length (o_dat ob)) mb q)))
       (PSend chs (Sent a (length (o_dat oa)) ma (S q) None) (o_dat oa))))).
Proof.
  intros E Pg (Hin & Hc & Hc0) Rq (Oa & Wa) (Ob & Wb) Nab Ga Gb La Lb Ls Ld chr chs q.
  assert (Hi : i < length (g_ranks t)) by (apply nth_error_Some; congruence).
  (* up to MPI_Irecv *)
  destruct (exec_solo I (@solo_irecv_vec r b src tag _ c ob mb Pg Hc Ob (writable_readable _ _ Wb) Lb Gb) t i E) as [t1 E1].
  rewrite Rq in E1. cbn [app] in E1.
  set (r1 := with_prog r _) in E1. set (s1 := Gst _ _) in E1.
  assert (N1 : nth_error (g_ranks s1) i = Some r1) by exact (@nth_error_upd_eq _ _ _ _ _ E).
  assert (L1 : length (g_ranks s1) = length (g_ranks t)) by apply upd_length.
  set (xr := Areq b (length (o_dat ob)) false chr (nrecv t chr) false).
  set (r2 := Rst (r_mem r) (r_act r ++ [Some xr]) (r_priv r) (set_reqs [q] (comm_Isend_std a dst tag (comm_Waitall k)))).
  assert (S1 : rank_step (length (g_ranks s1)) i (nsend s1) (nrecv s1) r1 = OGo r2 (PRecv V chr (Posted b (length (o_dat ob)) mb q))).
  { unfold rank_step. cbn [r1 with_prog r_prog r_mem r_priv r_act]. rewrite Ob, Hin, L1.
    change (writable (with_prog r (Irecv c b (length (o_dat ob)) mb src tag (fun q0 => set_reqs [q0] (comm_Isend_std a dst tag (comm_Waitall k))))) b) with (writable r b).
    fold r1. change (writable r1 b) with (writable r b). rewrite Wb, Nat.leb_refl, (proj2 (Nat.ltb_lt _ _) Ls).
    destruct (Nat.eqb_spec c 0); [congruence|]. cbn [andb negb]. reflexivity. }
  assert (E2 := step_rank I s1 i N1 S1). cbn [g_ranks s1] in E2. rewrite upd_upd in E2.
  set (s2 := Gst _ _) in E2.
  assert (N2 : nth_error (g_ranks s2) i = Some r2) by exact (@nth_error_upd_eq _ _ _ _ _ E).
  (* up to MPI_Isend *)
  set (r3 := Rst (r_mem r) (r_act r ++ [Some xr]) (with_reqs (r_priv r) [q])
       (Isend c a (length (o_dat oa)) ma dst tag (fun q' => set_reqs [q; q'] (comm_Waitall k)))).
  assert (RD : readable r2 a = true).
  { unfold r2. rewrite readable_snoc, (writable_readable _ _ Wa). cbn [xr a_buf a_snd negb]. rewrite andb_true_r.
    destruct (Nat.eqb_spec b a); [congruence|reflexivity]. }
  assert (SO : solo r2 r3).
  { eapply solo_trans; [eapply solo_set_reqs; reflexivity|].
    exact (@solo_isend_std (Rst (r_mem r) (r_act r ++ [Some xr]) (with_reqs (r_priv r) [q]) (comm_Isend_std a dst tag (comm_Waitall k)))
             a dst tag _ c oa ma eq_refl Hc Oa RD La Ga). }
  destruct (exec_solo I SO s2 i N2) as [t3 E3]. cbn [g_ranks g_chans s2] in E3. rewrite upd_upd in E3.
  set (s3 := Gst _ _) in E3.
  assert (N3 : nth_error (g_ranks s3) i = Some r3) by exact (@nth_error_upd_eq _ _ _ _ _ E).
  assert (L3 : length (g_ranks s3) = length (g_ranks t)) by apply upd_length.
  set (xs := Areq a (length (o_dat oa)) true chs (nsend t chs) false).
  set (r4 := Rst (r_mem r) (r_act r ++ [Some xr; Some xs]) (with_reqs (r_priv r) [q]) (set_reqs [q; S q] (comm_Waitall k))).
  assert (NS : nsend s3 chs = nsend t chs).
  { unfold nsend, chan_of. cbn [s3 g_chans s1]. rewrite cget_post. cbn [post_on]. destruct (chan_dec chr chs) as [<-|]; reflexivity. }
  assert (S3 : rank_step (length (g_ranks s3)) i (nsend s3) (nrecv s3) r3 =
     OGo r4 (PSend chs (Sent a (length (o_dat oa)) ma (S q) None) (o_dat oa))).
  { unfold rank_step. cbn [r3 r_prog r_mem r_priv r_act]. rewrite Oa. fold r3. change (readable r3 a) with (readable r2 a).
    rewrite RD, L3, Nat.leb_refl, (proj2 (Nat.ltb_lt _ _) Ld). cbn [with_reqs p_init]. rewrite Hin.
    destruct (Nat.eqb_spec c 0); [congruence|]. cbn [andb negb]. cbv zeta. fold chs. rewrite NS, firstn_all.
    unfold r4, with_act. cbn [r3 r_mem r_priv]. rewrite <- app_assoc, app_length. cbn [length app].
    replace (length (r_act r) + 1) with (S q) by (unfold q; lia). reflexivity. }
  assert (E4 := step_rank I s3 i N3 S3). cbn [g_ranks g_chans s3] in E4. rewrite upd_upd in E4.
  set (s4 := Gst _ _) in E4.
  assert (N4 : nth_error (g_ranks s4) i = Some r4) by exact (@nth_error_upd_eq _ _ _ _ _ E).
  set (r5 := Rst (r_mem r) (r_act r ++ [Some xr; Some xs]) (with_reqs (r_priv r) [q; S q]) (Wait [q; S q] (set_reqs [] k))).
  assert (SO5 : solo r4 r5).
  { eapply solo_trans; [eapply solo_set_reqs; reflexivity|].
    exact (@solo_waitall (Rst (r_mem r) (r_act r ++ [Some xr; Some xs]) (with_reqs (r_priv r) [q; S q]) (comm_Waitall k)) k eq_refl). }
  destruct (exec_solo I SO5 s4 i N4) as [t5 E5]. cbn [g_ranks g_chans s4] in E5. rewrite upd_upd in E5.
  eexists. eapply exec_app; [exact E1|eapply exec_app; [exact E2|eapply exec_app; [exact E3|eapply exec_app; [exact E4|exact E5]]]].
Qed.
End Exchange.
