(** * MpiProof6: what the wrappers achieve. *)
From Coq Require Import List Arith Bool Lia.
From Verif Require Import Base MpiMap MpiModel MpiProof MpiProof2 MpiProof3 MpiProof4 MpiProof5 MpiSpec.
Import ListNotations.
Set Implicit Arguments.

Section Rules.
Variable V : Type.
Variable I : impl V.
Notation rst := (rst V).
Notation gst := (gst V).
Notation gstep := (gstep I).
Notation exec := (exec I).

Lemma leads_intro (s s' : gst) tr : reachable I s -> exec (Some s) tr (Some s') -> leads I s s'.
Proof.
  intros R E. split; [eauto|]. intro o. eapply outcome_stable; eauto. apply reachable_inv; auto.
Qed.

Lemma fails_intro (s : gst) tr : reachable I s -> exec (Some s) tr None -> fails I s.
Proof.
  intros R E. assert (O : outcome I s None) by (split; [eauto|exact Logic.I]). split.
  { intros t s' E'. eapply err_exec; [apply reachable_inv; exact R|exact E'|eauto]. }
  intros o O'. eapply outcome_unique; eauto. apply reachable_inv; auto.
Qed.

(** ** One rank on its own *)

Inductive solo : rst -> rst -> Prop :=
| solo_nil r : solo r r
| solo_cons r r1 r2 : (forall P i ns nr, rank_step P i ns nr r = OGo r1 (PNone V)) -> solo r1 r2 -> solo r r2.

Lemma solo_one r r1 : (forall P i ns nr, rank_step P i ns nr r = OGo r1 (PNone V)) -> solo r r1.
Proof. intro H. econstructor; [exact H|constructor]. Qed.

Lemma solo_trans r1 r2 r3 : solo r1 r2 -> solo r2 r3 -> solo r1 r3.
Proof. induction 1; auto. intro. econstructor; eauto. Qed.

Lemma step_rank s i r r' p :
  nth_error (g_ranks s) i = Some r -> rank_step (length (g_ranks s)) i (nsend s) (nrecv s) r = OGo r' p ->
  exec (Some s) (post_event p) (Some (Gst (upd (g_ranks s) i r') (apply_post (g_chans s) p))).
Proof.
  intros E H. rewrite <- (app_nil_r (post_event p)). apply exec_cons with (l := LRank i)
    (s1 := Some (Gst (upd (g_ranks s) i r') (apply_post (g_chans s) p))); [|constructor].
  cbn [MpiModel.gstep]. rewrite E, H. reflexivity.
Qed.

Lemma upd_same (l : list rst) i r : nth_error l i = Some r -> upd l i r = l.
Proof.
  intro E. apply nth_error_ext. intro j. rewrite nth_error_upd. destruct (Nat.eqb_spec i j) as [->|]; cbn [andb]; auto.
  destruct (Nat.ltb j (length l)); [symmetry; exact E|reflexivity].
Qed.

Lemma nth_error_upd_eq (l : list rst) i r r' : nth_error l i = Some r -> nth_error (upd l i r') i = Some r'.
Proof.
  intro E. rewrite nth_error_upd, Nat.eqb_refl. assert (L : i < length l) by (apply nth_error_Some; congruence).
  destruct (Nat.ltb_spec i (length l)); [reflexivity|lia].
Qed.

Lemma exec_solo r r' : solo r r' -> forall s i, nth_error (g_ranks s) i = Some r ->
  exists tr, exec (Some s) tr (Some (Gst (upd (g_ranks s) i r') (g_chans s))).
Proof.
  induction 1 as [r|r r1 r2 H S IH]; intros s i E.
  - exists []. rewrite upd_same by exact E. destruct s. constructor.
  - assert (X := step_rank s i E (H _ _ _ _)). cbn [apply_post] in X.
    destruct (IH (Gst (upd (g_ranks s) i r1) (g_chans s)) i (nth_error_upd_eq _ _ _ E)) as [tr Y].
    cbn [g_ranks g_chans] in Y. rewrite upd_upd in Y.
    eexists. eapply exec_app; [exact X|exact Y].
Qed.

Lemma exec_solo_all (g : nat -> rst -> rst) (s : gst) :
  (forall i r, nth_error (g_ranks s) i = Some r -> solo r (g i r)) ->
  exists tr l, exec (Some s) tr (Some (Gst l (g_chans s))) /\ pointwise g (g_ranks s) l.
Proof.
  intro H.
  assert (X : forall n, n <= length (g_ranks s) -> exists tr l, exec (Some s) tr (Some (Gst l (g_chans s))) /\
     length l = length (g_ranks s) /\
     forall i, nth_error l i = option_map (fun r => if Nat.ltb i n then g i r else r) (nth_error (g_ranks s) i)).
  { induction n as [|n IH]; intro L.
    - exists [], (g_ranks s). split; [destruct s; constructor|]. split; auto.
      intro i. destruct (nth_error (g_ranks s) i); reflexivity.
    - destruct IH as (tr & l & E & Ln & N); [lia|].
      destruct (nth_error (g_ranks s) n) as [r|] eqn:En; [|apply nth_error_None in En; lia].
      assert (E2 := N n). rewrite En in E2. cbn [option_map] in E2. rewrite Nat.ltb_irrefl in E2.
      destruct (exec_solo (H n r En) (Gst l (g_chans s)) n E2) as [tr2 X]. cbn [g_ranks g_chans] in X.
      eexists _, (upd l n (g n r)). split; [eapply exec_app; [exact E|exact X]|]. rewrite upd_length. split; auto.
      intro i. rewrite nth_error_upd. destruct (Nat.eqb_spec n i) as [<-|Ni].
      + destruct (Nat.ltb_spec n (length l)); [|lia]. cbn [andb]. rewrite En. cbn [option_map].
        destruct (Nat.ltb_spec n (S n)); [reflexivity|lia].
      + cbn [andb]. rewrite N. destruct (nth_error (g_ranks s) i); cbn [option_map]; auto.
        destruct (Nat.ltb_spec i n), (Nat.ltb_spec i (S n)); auto; lia. }
  destruct (X (length (g_ranks s)) (le_n _)) as (tr & l & E & _ & N). exists tr, l. split; auto.
  intro i. rewrite N. destruct (nth_error (g_ranks s) i) eqn:Ei; cbn [option_map]; auto.
  assert (i < length (g_ranks s)) by (apply nth_error_Some; congruence).
  destruct (Nat.ltb_spec i (length (g_ranks s))); [reflexivity|lia].
Qed.

(** ** Pieces of wrappers *)

Lemma with_prog_same (r : rst) p : r_prog r = p -> with_prog r p = r.
Proof. intros <-. destruct r; reflexivity. Qed.

Lemma solo_loc (r : rst) k : r_prog r = Loc (fun p => p) k -> solo r (with_prog r (k (r_priv r))).
Proof. intro E. apply solo_one. intros. unfold rank_step. rewrite E. reflexivity. Qed.

Lemma solo_get_comm (r : rst) k : r_prog r = get_comm k -> solo r (with_prog r (k (p_comm (r_priv r)))).
Proof. intro E. exact (@solo_loc r _ E). Qed.

Lemma solo_read (r : rst) a k o : r_prog r = Read a k -> objat (r_mem r) a = Some o -> readable r a = true ->
  solo r (with_prog r (k o)).
Proof. intros E O R. apply solo_one. intros. unfold rank_step. rewrite E, O, R. reflexivity. Qed.

Lemma writable_readable (r : rst) a : writable r a = true -> readable r a = true.
Proof.
  unfold writable, readable. rewrite !negb_true_iff. intro H. apply not_true_iff_false. intro X.
  apply existsb_nth in X as (j & y & E & F).
  assert (existsb (uses a) (r_act r) = true); [|congruence]. apply existsb_nth. exists j, y. split; auto.
  destruct y; cbn in *; auto. apply andb_true_iff in F. tauto.
Qed.

Lemma supported_type t : supported t -> exists m, get_type t = Some m.
Proof. intros [-> | [-> | [-> | ->]]]; eexists; reflexivity. Qed.

Lemma mty_eqb_refl m : mty_eqb m m = true.
Proof. destruct m; reflexivity. Qed.
Lemma mop_eqb_refl m : mop_eqb m m = true.
Proof. destruct m; reflexivity. Qed.

(** ** Broadcast *)

Lemma pw_nth (f : nat -> rst -> rst) l l' i r : pointwise f l l' -> nth_error l i = Some r -> nth_error l' i = Some (f i r).
Proof. intros H E. rewrite (H i), E. reflexivity. Qed.

Lemma exec_coll (s : gst) m : coll_step I (g_ranks s) = Some (Some m) ->
  exec (Some s) [] (Some (Gst m (g_chans s))).
Proof.
  intro H. change (@nil (event V)) with (@nil (event V) ++ []). apply exec_cons with (l := LColl) (s1 := Some (Gst m (g_chans s))).
  - cbn [MpiModel.gstep]. rewrite H. reflexivity.
  - constructor.
Qed.

Lemma exec_coll_err (s : gst) : coll_step I (g_ranks s) = Some None -> exec (Some s) [] None.
Proof.
  intro H. change (@nil (event V)) with (@nil (event V) ++ []). apply exec_cons with (l := LColl) (s1 := None).
  - cbn [MpiModel.gstep]. rewrite H. reflexivity.
  - constructor.
Qed.

(** all ranks are inside a collective, and the calls fit *)
Lemma coll_go (l : list rst) x0 :
  0 < length l -> (forall i, i < length l -> in_coll (rk l i) = true) ->
  coll_args (rk l (coll_root (coll_args (rk l 0)))) = x0 ->
  (forall i, i < length l -> coll_ok I l x0 i = true) ->
  coll_step I l = Some (Some (map (fun i => coll_after (rk l i) (coll_out (length l) i (coll_args (rk l i)))
                                              (coll_res I x0 (coll_ins l) i)) (seq 0 (length l)))).
Proof.
  intros L IC X OK. unfold coll_step. destruct (Nat.ltb_spec 0 (length l)); [|lia].
  assert (A : forallb (@in_coll V) l = true).
  { apply forallb_forall. intros r Hr. apply In_nth_error in Hr as [i Ei].
    assert (i < length l) by (apply nth_error_Some; congruence). specialize (IC i). unfold rk in IC.
    rewrite (nth_error_nth _ _ _ Ei) in IC. auto. }
  rewrite A, X. cbn [andb].
  assert (B : forallb (coll_ok I l x0) (seq 0 (length l)) = true).
  { apply forallb_forall. intros i Hi. apply in_seq in Hi. apply OK. lia. }
  rewrite B. reflexivity.
Qed.

Lemma coll_fail (l : list rst) x0 j :
  j < length l -> (forall i, i < length l -> in_coll (rk l i) = true) ->
  coll_args (rk l (coll_root (coll_args (rk l 0)))) = x0 -> coll_ok I l x0 j = false ->
  coll_step I l = Some None.
Proof.
  intros L IC X OK. unfold coll_step. destruct (Nat.ltb_spec 0 (length l)); [|lia].
  assert (A : forallb (@in_coll V) l = true).
  { apply forallb_forall. intros r Hr. apply In_nth_error in Hr as [i Ei].
    assert (i < length l) by (apply nth_error_Some; congruence). specialize (IC i). unfold rk in IC.
    rewrite (nth_error_nth _ _ _ Ei) in IC. auto. }
  rewrite A, X. cbn [andb].
  destruct (forallb (coll_ok I l x0) (seq 0 (length l))) eqn:B; auto.
  rewrite forallb_forall in B. rewrite B in OK; [discriminate|]. apply in_seq. lia.
Qed.

Lemma nth_map_seq' {A} (f : nat -> A) n i d : i < n -> nth i (map f (seq 0 n)) d = f i.
Proof. intro L. rewrite nth_map_seq by exact L. reflexivity. Qed.

Lemma prefix_write_all (d old : list V) : length d = length old -> prefix_write d old = d.
Proof. intro H. unfold prefix_write. rewrite H, skipn_all. apply app_nil_r. Qed.

Lemma deliver_objat (m : list (option (obj V))) a d o : objat m a = Some o -> length d = length (o_dat o) ->
  forall b, objat (deliver m a d) b =
    if Nat.eqb a b then option_map (fun o => Obj (o_ty o) d) (objat m b) else objat m b.
Proof.
  intros O L b. destruct (Nat.eqb_spec a b) as [<-|N].
  - rewrite objat_deliver_eq, O. cbn. rewrite prefix_write_all by exact L. reflexivity.
  - apply objat_deliver_ne. exact N.
Qed.

Lemma bcast_core (s : gst) c root n t (a : nat -> nat) (o : nat -> obj V) (k : nat -> prog V) m :
  reachable I s -> root < length (g_ranks s) ->
  (forall i r, nth_error (g_ranks s) i = Some r ->
     solo r (with_prog r (Coll c (CBcast (a i) n m root) (k i))) /\ ready r c /\ holds r (a i) (o i) /\
     o_ty (o i) = t /\ length (o_dat (o i)) = n) ->
  exists s', leads I s s' /\ length (g_ranks s') = length (g_ranks s) /\
    (forall c', chan_of s' c' = chan_of s c') /\
    forall i r, nth_error (g_ranks s) i = Some r ->
      exists r', nth_error (g_ranks s') i = Some r' /\ assigned r (a i) (o_dat (o root)) (k i) r'.
Proof.
  intros R Lr H.
  set (P := length (g_ranks s)).
  set (g := fun i (r : rst) => with_prog r (Coll c (CBcast (a i) n m root) (k i))).
  destruct (@exec_solo_all g s) as (tr & l & E & PW).
  { intros i r Er. destruct (H i r Er) as (Pg & (Hi & Hc & Hc0) & (O & W) & Ty & Lo).
    exact Pg. }
  assert (LEN : length l = P) by (apply (pointwise_length PW)).
  assert (RK : forall i, i < P -> exists r, nth_error (g_ranks s) i = Some r /\ rk l i = g i r).
  { intros i Hi. destruct (nth_error (g_ranks s) i) as [r|] eqn:Er; [|apply nth_error_None in Er; unfold P in Hi; lia].
    exists r. split; auto. unfold rk. apply nth_error_nth. exact (pw_nth i PW Er). }
  assert (AR : forall i, i < P -> coll_args (rk l i) = CBcast (a i) n m root).
  { intros i Hi. destruct (RK i Hi) as (r & _ & ->). reflexivity. }
  assert (CS : coll_step I l = Some (Some (map (fun i => coll_after (rk l i) (coll_out P i (coll_args (rk l i)))
                                   (coll_res I (CBcast (a root) n m root) (coll_ins l) i)) (seq 0 P)))).
  { rewrite <- LEN. apply coll_go.
    - rewrite LEN. lia.
    - intros i Hi. rewrite LEN in Hi. destruct (RK i Hi) as (r & _ & ->). reflexivity.
    - rewrite (AR 0) by (unfold P; lia). cbn [coll_root]. apply AR. exact Lr.
    - intros i Hi. rewrite LEN in Hi. unfold coll_ok. rewrite LEN, (AR i Hi).
      destruct (RK i Hi) as (r & Er & Ei). destruct (RK 0) as (r0 & Er0 & E0); [unfold P; lia|].
      destruct (H i r Er) as (Pg & (Hin & Hc & Hc0) & (O & W) & Ty & Lo).
      rewrite Ei, E0. cbn [compat coll_comm g with_prog r_prog r_priv].
      rewrite !Nat.eqb_refl, mty_eqb_refl, Hin. destruct (Nat.ltb_spec root P); [|unfold P in *; lia].
      destruct (Nat.eqb_spec c 0); [congruence|].
      unfold in_ok, out_ok, alias_ok, coll_in, coll_out.
      assert (RD : readable (g i r) (a i) = true) by exact (writable_readable _ _ W).
      assert (WR : writable (g i r) (a i) = true) by exact W.
      change (r_mem (g i r)) with (r_mem r).
      destruct (Nat.eqb i root); rewrite O, ?WR, ?RD, Lo, Nat.leb_refl; reflexivity. }
  assert (INS : nth root (coll_ins l) [] = o_dat (o root)).
  { unfold coll_ins. rewrite LEN. rewrite nth_map_seq' by exact Lr.
    rewrite AR by exact Lr. cbn [coll_in]. rewrite Nat.eqb_refl.
    destruct (RK root Lr) as (r & Er & ->). destruct (H root r Er) as (_ & _ & (O & _) & _ & Lo).
    cbn [in_dat g with_prog r_mem]. rewrite O, <- Lo. apply firstn_all. }
  eexists. split; [eapply leads_intro; [exact R|eapply exec_app; [exact E|apply exec_coll; exact CS]]|].
  cbn [g_ranks]. split; [rewrite map_length, seq_length; reflexivity|]. split; [reflexivity|].
  intros i r Er. assert (Hi : i < P) by (apply nth_error_Some; congruence).
  eexists. split.
  { rewrite nth_error_nth' with (d := dead V) by (rewrite map_length, seq_length; exact Hi).
    rewrite nth_map_seq' by exact Hi. reflexivity. }
  rewrite (AR i Hi). destruct (RK i Hi) as (r1 & Er1 & ->). rewrite Er in Er1. inversion Er1; subst r1.
  destruct (H i r Er) as (Pg & _ & (O & W) & Ty & Lo).
  unfold coll_res. rewrite INS. unfold coll_out, coll_after.
  destruct (Nat.eqb_spec i root) as [->|N].
  - split; [reflexivity|]. split; [reflexivity|]. split; [|reflexivity].
    intro b. cbn. destruct (Nat.eqb_spec (a root) b) as [<-|]; auto. rewrite O. cbn. destruct (o root); reflexivity.
  - split; [reflexivity|]. split; [reflexivity|]. split; [|reflexivity].
    cbn. apply (@deliver_objat (r_mem r) (a i) (o_dat (o root)) (o i)); auto.
    destruct (nth_error (g_ranks s) root) as [rr|] eqn:Err; [|apply nth_error_None in Err; lia].
    destruct (H root rr Err) as (_ & _ & _ & _ & Lo'). congruence.
Qed.

Theorem bcast_vec_rule (s : gst) c root n t (a : nat -> nat) (o : nat -> obj V) (k : nat -> prog V) :
  reachable I s -> root < length (g_ranks s) -> 0 < n -> supported t ->
  (forall i r, nth_error (g_ranks s) i = Some r ->
     r_prog r = comm_Bcast_vec (a i) root (k i) /\ ready r c /\ holds r (a i) (o i) /\
     o_ty (o i) = t /\ length (o_dat (o i)) = n) ->
  exists s', leads I s s' /\ length (g_ranks s') = length (g_ranks s) /\
    (forall c', chan_of s' c' = chan_of s c') /\
    forall i r, nth_error (g_ranks s) i = Some r ->
      exists r', nth_error (g_ranks s') i = Some r' /\ assigned r (a i) (o_dat (o root)) (k i) r'.
Proof.
  intros R Lr Ln St H. destruct (supported_type St) as [m Gt].
  apply (@bcast_core s c root n t a o k m R Lr).
  intros i r Er. destruct (H i r Er) as (Pg & (Hi & Hc & Hc0) & (O & W) & Ty & Lo).
  split; [|split; [split; auto|split; [split; auto|split; auto]]].
  eapply solo_trans; [exact (@solo_get_comm r _ Pg)|]. rewrite Hc.
  eapply solo_trans; [eapply solo_read; [reflexivity|exact O|apply writable_readable; exact W]|].
  cbv beta. rewrite Lo. destruct (Nat.eqb_spec n 0); [lia|]. unfold with_type. rewrite Ty, Gt. constructor.
Qed.

Theorem bcast_scalar_rule (s : gst) c root t (a : nat -> nat) (o : nat -> obj V) (k : nat -> prog V) :
  reachable I s -> root < length (g_ranks s) -> supported t ->
  (forall i r, nth_error (g_ranks s) i = Some r ->
     r_prog r = comm_Bcast_scalar (a i) root (k i) /\ ready r c /\ holds r (a i) (o i) /\
     o_ty (o i) = t /\ length (o_dat (o i)) = 1) ->
  exists s', leads I s s' /\ length (g_ranks s') = length (g_ranks s) /\
    (forall c', chan_of s' c' = chan_of s c') /\
    forall i r, nth_error (g_ranks s) i = Some r ->
      exists r', nth_error (g_ranks s') i = Some r' /\ assigned r (a i) (o_dat (o root)) (k i) r'.
Proof.
  intros R Lr St H. destruct (supported_type St) as [m Gt].
  apply (@bcast_core s c root 1 t a o k m R Lr).
  intros i r Er. destruct (H i r Er) as (Pg & (Hi & Hc & Hc0) & (O & W) & Ty & Lo).
  split; [|split; [split; auto|split; [split; auto|split; auto]]].
  eapply solo_trans; [exact (@solo_get_comm r _ Pg)|]. rewrite Hc.
  eapply solo_trans; [eapply solo_read; [reflexivity|exact O|apply writable_readable; exact W]|].
  cbv beta. unfold with_type. rewrite Ty, Gt. constructor.
Qed.

(** ** Reductions over all ranks *)

Lemma objat_snoc_none (m : list (option (obj V))) b : objat (m ++ [None]) b = objat m b.
Proof.
  unfold objat. destruct (lt_dec b (length m)) as [L|L].
  - rewrite nth_error_app1 by exact L. reflexivity.
  - rewrite nth_error_app2 by lia. rewrite (proj2 (nth_error_None m b)) by lia.
    destruct (b - length m) as [|[|x]]; reflexivity.
Qed.

Lemma objat_snoc (m : list (option (obj V))) o : objat (m ++ [Some o]) (length m) = Some o.
Proof. unfold objat. rewrite nth_error_app2 by lia. rewrite Nat.sub_diag. reflexivity. Qed.

Lemma upd_snoc {A} (l : list A) x y : upd (l ++ [x]) (length l) y = l ++ [y].
Proof. induction l; cbn; congruence. Qed.

(** no request can be on an object that does not exist yet *)
Lemma fresh_writable (r : rst) a : rinv r -> objat (r_mem r) a = None -> writable r a = true.
Proof.
  intros [A _] N. unfold writable. apply negb_true_iff. apply not_true_iff_false. intro X.
  apply existsb_nth in X as (j & [y|] & E & F); [|discriminate]. cbn in F. apply Nat.eqb_eq in F. subst a.
  destruct (A _ _ E) as (o & O & _). congruence.
Qed.

Lemma objat_oob (m : list (option (obj V))) : objat m (length m) = None.
Proof. unfold objat. rewrite (proj2 (nth_error_None m (length m))); auto. Qed.

Lemma deliver_snoc (m : list (option (obj V))) t v d :
  deliver (m ++ [Some (Obj t [v])]) (length m) [d] = m ++ [Some (Obj t [d])].
Proof. unfold deliver. rewrite objat_snoc, upd_snoc. reflexivity. Qed.

Lemma flat_map_singles (l : list V) :
  flat_map (fun l => match nth_error l 0 with Some v => [v] | None => [] end) (map (fun x => [x]) l) = l.
Proof. induction l as [|x l IH]; [reflexivity|]. cbn. f_equal. exact IH. Qed.

(** the state of a rank inside Allreduce_core *)
Definition in_allreduce (t : cty) (m : mty) (op : mop) (c : nat) (v : nat -> V) (k : nat -> V -> prog V)
  (i : nat) (r : rst) : rst :=
  let a := length (r_mem r) in
  with_mem r (r_mem r ++ [Some (Obj t [v i])])
    (Coll c (CAllreduce a a 1 m op)
       (Read a (fun o => Free a (match o_dat o with x :: _ => k i x | [] => Crash V end)))).

Lemma allreduce_enter (s : gst) c t m op v k :
  get_type t = Some m ->
  (forall i r, nth_error (g_ranks s) i = Some r ->
     r_prog r = Allreduce_core t (v i) op (k i) /\ p_comm (r_priv r) = c) ->
  exists tr l, exec (Some s) tr (Some (Gst l (g_chans s))) /\ pointwise (in_allreduce t m op c v k) (g_ranks s) l.
Proof.
  intros Gt H. apply exec_solo_all. intros i r Er. destruct (H i r Er) as (Pg & Hc).
  eapply solo_trans; [exact (@solo_get_comm r _ Pg)|]. rewrite Hc.
  apply solo_one. intros. unfold rank_step. cbn [with_prog r_prog r_mem]. unfold with_type. rewrite Gt. reflexivity.
Qed.

Theorem allreduce_rule (s : gst) c t op (v : nat -> V) (k : nat -> V -> prog V) :
  reachable I s -> 0 < length (g_ranks s) -> supported t -> i_alias I = true ->
  (forall i r, nth_error (g_ranks s) i = Some r ->
     r_prog r = Allreduce_core t (v i) op (k i) /\ ready r c) ->
  exists s', leads I s s' /\ length (g_ranks s') = length (g_ranks s) /\
    (forall c', chan_of s' c' = chan_of s c') /\
    forall i r, nth_error (g_ranks s) i = Some r ->
      exists r', nth_error (g_ranks s') i = Some r' /\
        continues r (k i (i_red I op (map v (seq 0 (length (g_ranks s)))))) r'.
Proof.
  intros R L0 St AL H. destruct (supported_type St) as [m Gt].
  set (P := length (g_ranks s)). assert (Hinv := reachable_inv R).
  destruct (@allreduce_enter s c t m op v k Gt (fun i r Er => let (x, y) := H i r Er in conj x (proj1 (proj2 y)))) as (tr & l & E & PW).
  set (g := in_allreduce t m op c v k) in *.
  assert (LEN : length l = P) by (apply (pointwise_length PW)).
  assert (RK : forall i, i < P -> exists r, nth_error (g_ranks s) i = Some r /\ rk l i = g i r).
  { intros i Hi. destruct (nth_error (g_ranks s) i) as [r|] eqn:Er; [|apply nth_error_None in Er; unfold P in Hi; lia].
    exists r. split; auto. unfold rk. apply nth_error_nth. exact (pw_nth i PW Er). }
  assert (AR : forall i, i < P -> exists a, coll_args (rk l i) = CAllreduce a a 1 m op).
  { intros i Hi. destruct (RK i Hi) as (r & _ & ->). eexists. reflexivity. }
  destruct (AR 0 L0) as [a0 A0].
  assert (CS : coll_step I l = Some (Some (map (fun i => coll_after (rk l i) (coll_out P i (coll_args (rk l i)))
                                   (coll_res I (CAllreduce a0 a0 1 m op) (coll_ins l) i)) (seq 0 P)))).
  { rewrite <- LEN. apply coll_go.
    - rewrite LEN. exact L0.
    - intros i Hi. rewrite LEN in Hi. destruct (RK i Hi) as (r & _ & ->). reflexivity.
    - rewrite A0. cbn [coll_root]. exact A0.
    - intros i Hi. rewrite LEN in Hi. unfold coll_ok. rewrite LEN.
      destruct (RK i Hi) as (r & Er & Ei). destruct (RK 0 L0) as (r0 & Er0 & E0).
      destruct (H i r Er) as (Pg & (Hin & Hc & Hc0)).
      rewrite Ei, E0. unfold coll_args, coll_comm, g, in_allreduce. cbn [with_mem r_prog r_priv compat].
      rewrite !Nat.eqb_refl, mty_eqb_refl, mop_eqb_refl, Hin.
      destruct (Nat.eqb_spec c 0); [congruence|].
      unfold in_ok, out_ok, alias_ok, coll_in, coll_out. cbn [with_mem r_mem].
      rewrite objat_snoc, Nat.eqb_refl, AL.
      assert (W : writable r (length (r_mem r)) = true) by (apply fresh_writable; [eapply iv_r; eauto|apply objat_oob]).
      match goal with |- context [writable ?x (length (r_mem r))] => change (writable x (length (r_mem r))) with (writable r (length (r_mem r))) end.
      match goal with |- context [readable ?x (length (r_mem r))] => change (readable x (length (r_mem r))) with (readable r (length (r_mem r))) end.
      rewrite W, (writable_readable _ _ W). reflexivity. }
  assert (INS : coll_ins l = map (fun x => [x]) (map v (seq 0 P))).
  { unfold coll_ins. rewrite LEN, map_map. apply map_ext_in. intros i Hi. apply in_seq in Hi.
    destruct (RK i) as (r & Er & ->); [lia|]. unfold g, in_allreduce. cbn [coll_args with_mem r_prog coll_in in_dat r_mem].
    rewrite objat_snoc. reflexivity. }
  set (x := i_red I op (map v (seq 0 P))).
  assert (RES : forall i, coll_res I (CAllreduce a0 a0 1 m op) (coll_ins l) i = [x]).
  { intro i. cbn [coll_res]. unfold reduce_all. cbn [seq map]. rewrite INS, flat_map_singles. reflexivity. }
  assert (E1 := exec_app E (exec_coll (Gst l (g_chans s)) CS)). cbn [g_chans] in E1.
  set (l2 := map _ (seq 0 P)) in E1.
  set (g2 := fun (i : nat) (r : rst) => with_mem r (upd (r_mem r) (length (r_mem r) - 1) None) (k i x)).
  assert (N2 : forall i r, nth_error (g_ranks s) i = Some r -> nth_error l2 i =
     Some (with_mem r (r_mem r ++ [Some (Obj t [x])]) (Read (length (r_mem r))
              (fun o => Free (length (r_mem r)) (match o_dat o with x :: _ => k i x | [] => Crash V end))))).
  { intros i r Er. assert (Hi : i < P) by (apply nth_error_Some; congruence).
    subst l2. rewrite nth_error_nth' with (d := dead V) by (rewrite map_length, seq_length; exact Hi).
    rewrite nth_map_seq' by exact Hi. rewrite RES. destruct (RK i Hi) as (r1 & Er1 & ->). rewrite Er in Er1. inversion Er1; subst r1.
    unfold g, in_allreduce, coll_after, coll_args, coll_out, coll_next. cbn [with_mem r_prog r_mem].
    rewrite deliver_snoc. reflexivity. }
  destruct (@exec_solo_all g2 (Gst l2 (g_chans s))) as (tr3 & l3 & E3 & PW3).
  { intros i r2 Er2. cbn [g_ranks] in Er2.
    assert (Hi : i < P). { apply nth_error_Some. intro X. apply nth_error_None in X.
      assert (LL : length l2 = P) by (subst l2; rewrite map_length, seq_length; reflexivity).
      assert (i < length l2) by (apply nth_error_Some; congruence). unfold P in *. lia. }
    destruct (nth_error (g_ranks s) i) as [r|] eqn:Er; [|apply nth_error_None in Er; unfold P in *; lia].
    rewrite (N2 i r Er) in Er2. inversion Er2; subst r2. clear Er2.
    assert (W : writable r (length (r_mem r)) = true) by (apply fresh_writable; [eapply iv_r; eauto|apply objat_oob]).
    eapply solo_trans.
    - eapply solo_read; [reflexivity|cbn [with_mem r_mem]; apply objat_snoc|].
      exact (writable_readable _ _ W).
    - cbn [o_dat]. apply solo_one. intros P' i' ns nr. unfold rank_step. cbn [with_prog with_mem r_prog r_mem]. rewrite objat_snoc.
      match goal with |- context [writable ?y (length (r_mem r))] => change (writable y (length (r_mem r))) with (writable r (length (r_mem r))) end.
      rewrite W. unfold g2, with_mem. cbn [with_prog r_mem r_act r_priv]. rewrite app_length. cbn [length].
      replace (length (r_mem r) + 1 - 1) with (length (r_mem r)) by lia. reflexivity. }
  eexists. split; [eapply leads_intro; [exact R|eapply exec_app; [exact E1|exact E3]]|]. cbn [g_ranks].
  assert (LL : length l3 = P).
  { rewrite (pointwise_length PW3). cbn. subst l2. rewrite map_length, seq_length. reflexivity. }
  split; [exact LL|]. split; [reflexivity|]. intros i r Er. eexists. split; [exact (pw_nth i PW3 (N2 i r Er))|].
  unfold g2. cbn [with_mem r_mem]. rewrite app_length. cbn [length].
  replace (length (r_mem r) + 1 - 1) with (length (r_mem r)) by lia. rewrite upd_snoc.
  split; [reflexivity|]. split; [reflexivity|]. split; [intro b; apply objat_snoc_none|reflexivity].
Qed.

(** with an implementation that does not accept equal buffers, Allreduce is an error *)
Theorem allreduce_alias_rule (s : gst) c t op (v : nat -> V) (k : nat -> V -> prog V) :
  reachable I s -> 0 < length (g_ranks s) -> supported t -> i_alias I = false ->
  (forall i r, nth_error (g_ranks s) i = Some r ->
     r_prog r = Allreduce_core t (v i) op (k i) /\ ready r c) ->
  fails I s.
Proof.
  intros R L0 St AL H. destruct (supported_type St) as [m Gt].
  destruct (@allreduce_enter s c t m op v k Gt (fun i r Er => let (x, y) := H i r Er in conj x (proj1 (proj2 y)))) as (tr & l & E & PW).
  assert (LEN := pointwise_length PW).
  assert (RK : forall i, i < length (g_ranks s) -> exists r, nth_error (g_ranks s) i = Some r /\ rk l i = in_allreduce t m op c v k i r).
  { intros i Hi. destruct (nth_error (g_ranks s) i) as [r|] eqn:Er; [|apply nth_error_None in Er; lia].
    exists r. split; auto. unfold rk. apply nth_error_nth. exact (pw_nth i PW Er). }
  eapply fails_intro; [exact R|]. eapply exec_app; [exact E|]. apply exec_coll_err. cbn [g_ranks].
  eapply coll_fail with (j := 0); [lia| |reflexivity|].
  - intros i Hi. destruct (RK i) as (r & _ & ->); [lia|reflexivity].
  - destruct (RK 0 L0) as (r & Er & E0). unfold coll_ok. rewrite E0.
    change (coll_args (in_allreduce t m op c v k 0 r)) with (CAllreduce (length (r_mem r)) (length (r_mem r)) 1 m op).
    unfold alias_ok. cbn [coll_in coll_out].
    rewrite !Nat.eqb_refl, AL. cbn [negb orb]. apply andb_false_r.
Qed.
(** before comm::Init, Allreduce is an error *)
Theorem allreduce_init_rule (s : gst) c t op (v : nat -> V) (k : nat -> V -> prog V) :
  reachable I s -> 0 < length (g_ranks s) -> supported t -> 
  (forall i r, nth_error (g_ranks s) i = Some r ->
     r_prog r = Allreduce_core t (v i) op (k i) /\ p_init (r_priv r) = false /\ p_comm (r_priv r) = c) ->
  fails I s.
Proof.
  intros R L0 St H. destruct (supported_type St) as [m Gt].
  destruct (@allreduce_enter s c t m op v k Gt (fun i r Er => let (x, y) := H i r Er in conj x (proj2 y))) as (tr & l & E & PW).
  assert (LEN := pointwise_length PW).
  assert (RK : forall i, i < length (g_ranks s) -> exists r, nth_error (g_ranks s) i = Some r /\ rk l i = in_allreduce t m op c v k i r).
  { intros i Hi. destruct (nth_error (g_ranks s) i) as [r|] eqn:Er; [|apply nth_error_None in Er; lia].
    exists r. split; auto. unfold rk. apply nth_error_nth. exact (pw_nth i PW Er). }
  eapply fails_intro; [exact R|]. eapply exec_app; [exact E|]. apply exec_coll_err. cbn [g_ranks].
  eapply coll_fail with (j := 0); [lia| |reflexivity|].
  - intros i Hi. destruct (RK i) as (r & _ & ->); [lia|reflexivity].
  - destruct (RK 0 L0) as (r & Er & E0). unfold coll_ok. rewrite E0.
    destruct (H 0 r Er) as (_ & Hi & _). change (p_init (r_priv (in_allreduce t m op c v k 0 r))) with (p_init (r_priv r)).
    rewrite Hi, andb_false_r. reflexivity.
Qed.
End Rules.
