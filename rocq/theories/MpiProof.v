(** * MpiProof: what the library does in the background does not interfere with what the ranks do. *)
From Coq Require Import List Arith Bool Lia.
From Verif Require Import Base MpiMap MpiModel.
Import ListNotations.
Set Implicit Arguments.

Section Background.
Variable V : Type.
Variable I : impl V.
Notation rst := (rst V).
Notation obj := (obj V).

(** background effects on one rank: a request completes, a message is stored *)
Definition bmark (q : nat) (r : rst) : rst := Rst (r_mem r) (mark (r_act r) q) (r_priv r) (r_prog r).
Definition bdel (a : nat) (d : list V) (r : rst) : rst :=
  Rst (deliver (r_mem r) a d) (r_act r) (r_priv r) (r_prog r).

(** ** Facts about requests and objects *)

Lemma mark_length l q : length (mark l q) = length l.
Proof. unfold mark. destruct (nth_error l q) as [[x|]|]; auto. apply upd_length. Qed.

Definition done_of (x : areq) : areq := Areq (a_buf x) (a_cnt x) (a_snd x) (a_chan x) (a_idx x) true.

Lemma nth_error_mark l q j :
  nth_error (mark l q) j =
  if Nat.eqb j q then option_map (option_map done_of) (nth_error l j) else nth_error l j.
Proof.
  unfold mark. destruct (Nat.eqb_spec j q) as [->|N].
  - destruct (nth_error l q) as [[x|]|] eqn:E; cbn; auto.
    rewrite nth_error_upd. rewrite Nat.eqb_refl.
    assert (q < length l) by (apply nth_error_Some; congruence).
    destruct (Nat.ltb_spec q (length l)); [|lia]. reflexivity.
  - destruct (nth_error l q) as [[x|]|] eqn:E; cbn; auto.
    rewrite nth_error_upd. destruct (Nat.eqb_spec q j); [congruence|]. reflexivity.
Qed.

Lemma mark_app l k q : q < length l -> mark (l ++ k) q = mark l q ++ k.
Proof.
  intro H. unfold mark. rewrite nth_error_app1 by exact H.
  destruct (nth_error l q) as [[x|]|]; auto. apply upd_app_l; exact H.
Qed.

Lemma existsb_nth {A} (f : A -> bool) l :
  existsb f l = true <-> exists j x, nth_error l j = Some x /\ f x = true.
Proof.
  rewrite existsb_exists. split.
  - intros (x & Hx & Hf). apply In_nth_error in Hx as [j Hj]. eauto.
  - intros (j & x & Hj & Hf). exists x. split; auto. eapply nth_error_In; eauto.
Qed.

Lemma existsb_eq_iff {A} (f : A -> bool) l k :
  (existsb f l = true <-> existsb f k = true) -> existsb f l = existsb f k.
Proof. destruct (existsb f l), (existsb f k); intuition congruence. Qed.

Lemma existsb_mark (f : option areq -> bool) l q :
  (forall x, f (Some (done_of x)) = f (Some x)) -> existsb f (mark l q) = existsb f l.
Proof.
  intro Hf. apply existsb_eq_iff. rewrite !existsb_nth. split.
  - intros (j & x & Hj & Hx). rewrite nth_error_mark in Hj. destruct (Nat.eqb j q) eqn:E.
    + destruct (nth_error l j) as [[y|]|] eqn:E2; cbn in Hj; inversion Hj; subst.
      * exists j, (Some y). rewrite Hf in Hx. auto.
      * exists j, None. auto.
    + eauto.
  - intros (j & x & Hj & Hx). exists j. rewrite nth_error_mark, Hj. cbn. destruct (Nat.eqb j q).
    + exists (option_map done_of x). split; auto. destruct x; cbn; auto. rewrite Hf; auto.
    + eauto.
Qed.

Lemma readable_mark r q a : readable (bmark q r) a = readable r a.
Proof. unfold readable, bmark; cbn. f_equal. apply existsb_mark. reflexivity. Qed.
Lemma writable_mark r q a : writable (bmark q r) a = writable r a.
Proof. unfold writable, bmark; cbn. f_equal. apply existsb_mark. reflexivity. Qed.

Lemma active_mark l q j : is_active (mark l q) j = is_active l j.
Proof.
  unfold is_active. rewrite nth_error_mark. destruct (Nat.eqb j q); auto.
  destruct (nth_error l j) as [[x|]|]; auto.
Qed.

Lemma done_mark l q j : is_done l j = true -> is_done (mark l q) j = true.
Proof.
  unfold is_done. rewrite nth_error_mark. destruct (Nat.eqb j q); auto.
  destruct (nth_error l j) as [[x|]|]; auto.
Qed.

Lemma forget_length qs l : length (forget l qs) = length l.
Proof.
  unfold forget. revert l. induction qs as [|q qs IH]; intro l; cbn; auto. rewrite IH. apply upd_length.
Qed.

Lemma nth_error_forget qs l j :
  nth_error (forget l qs) j =
  match nth_error l j with None => None | Some x => if existsb (Nat.eqb j) qs then Some None else Some x end.
Proof.
  revert l. unfold forget. induction qs as [|q qs IH]; intro l; cbn.
  - destruct (nth_error l j); auto.
  - rewrite IH, nth_error_upd.
    destruct (Nat.eqb_spec q j) as [->|N].
    + rewrite Nat.eqb_refl. cbn [andb orb]. destruct (Nat.ltb_spec j (length l)) as [H|H].
      * apply nth_error_Some in H. destruct (nth_error l j); [|congruence].
        destruct (existsb (Nat.eqb j) qs); auto.
      * apply nth_error_None in H. rewrite H. auto.
    + destruct (Nat.eqb_spec j q); [congruence|]. cbn [andb orb]. auto.
Qed.

Lemma forget_mark qs l q : forget (mark l q) qs = mark (forget l qs) q.
Proof.
  apply nth_error_ext. intro j. rewrite nth_error_mark, !nth_error_forget, nth_error_mark.
  destruct (Nat.eqb j q); destruct (nth_error l j); cbn; auto.
  destruct (existsb (Nat.eqb j) qs); auto.
Qed.

(** ** Objects *)

Lemma objat_upd_ne m a b x : a <> b -> objat (V:=V) (upd m a x) b = objat m b.
Proof.
  intro N. unfold objat. rewrite nth_error_upd. destruct (Nat.eqb_spec a b); [congruence|]. reflexivity.
Qed.

Lemma objat_lt m a (o : obj) : objat m a = Some o -> a < length m.
Proof.
  unfold objat. intro H. apply nth_error_Some. destruct (nth_error m a); congruence.
Qed.

Lemma objat_upd_eq m a (o o' : obj) : objat m a = Some o -> objat (upd m a (Some o')) a = Some o'.
Proof.
  intro H. apply objat_lt in H. unfold objat. rewrite nth_error_upd, Nat.eqb_refl.
  destruct (Nat.ltb_spec a (length m)); [reflexivity|lia].
Qed.

Lemma deliver_length m a (d : list V) : length (deliver m a d) = length m.
Proof. unfold deliver. destruct (objat m a); auto. apply upd_length. Qed.

Lemma objat_deliver_ne m a b (d : list V) : a <> b -> objat (deliver m a d) b = objat m b.
Proof. intro N. unfold deliver. destruct (objat m a); auto. apply objat_upd_ne; auto. Qed.

Lemma objat_deliver_eq m a (d : list V) :
  objat (deliver m a d) a = option_map (fun o => Obj (o_ty o) (prefix_write d (o_dat o))) (objat m a).
Proof.
  unfold deliver. destruct (objat m a) as [o|] eqn:E; cbn; [|exact E]. eapply objat_upd_eq; eauto.
Qed.

Lemma deliver_app m x a (d : list V) (o : obj) : objat m a = Some o -> deliver (m ++ x) a d = deliver m a d ++ x.
Proof.
  intro H. assert (L := objat_lt _ _ H).
  assert (E : objat (m ++ x) a = Some o).
  { unfold objat in *. rewrite nth_error_app1 by exact L. exact H. }
  unfold deliver. rewrite E, H. apply upd_app_l; auto.
Qed.

Lemma deliver_upd_ne m a b x (d : list V) : a <> b -> deliver (upd m b x) a d = upd (deliver m a d) b x.
Proof.
  intro N. unfold deliver. rewrite objat_upd_ne by auto. destruct (objat m a); auto. apply upd_comm; auto.
Qed.

Lemma deliver_comm m a b (d e : list V) : a <> b -> deliver (deliver m a d) b e = deliver (deliver m b e) a d.
Proof.
  intro N. destruct (objat m b) as [o|] eqn:E.
  - assert (D : forall m', objat m' b = Some o ->
      deliver m' b e = upd m' b (Some (Obj (o_ty o) (prefix_write e (o_dat o))))).
    { intros m' E'. unfold deliver. rewrite E'. reflexivity. }
    rewrite (D m E), deliver_upd_ne by exact N. rewrite D; [reflexivity|].
    rewrite objat_deliver_ne by exact N. exact E.
  - assert (D : forall m', objat m' b = None -> deliver m' b e = m').
    { intros m' E'. unfold deliver. rewrite E'. reflexivity. }
    rewrite (D m E). apply D. rewrite objat_deliver_ne by exact N. exact E.
Qed.

Lemma prefix_write_length (d old : list V) : length d <= length old -> length (prefix_write d old) = length old.
Proof. intro H. unfold prefix_write. rewrite app_length, skipn_length. lia. Qed.

(** ** Commutation with the local actions of the rank *)

Definition commutes (f : rst -> rst) (r : rst) : Prop :=
  forall P i ns nr,
    (forall r' p, rank_step P i ns nr r = OGo r' p -> rank_step P i ns nr (f r) = OGo (f r') p) /\
    (rank_step P i ns nr r = OErr _ -> rank_step P i ns nr (f r) = OErr _).

Lemma commutes_id r : commutes (fun r => r) r.
Proof. intros P i ns nr. auto. Qed.

Lemma commutes_comp f g r : commutes f r -> commutes g (f r) -> commutes (fun r => g (f r)) r.
Proof.
  intros Hf Hg P i ns nr. destruct (Hf P i ns nr) as [F1 F2]. destruct (Hg P i ns nr) as [G1 G2]. split.
  - intros r' p H. apply F1 in H. apply G1 in H. exact H.
  - auto.
Qed.

Lemma commutes_mark q r : q < length (r_act r) -> commutes (bmark q) r.
Proof.
  intros Hq P i ns nr. unfold rank_step.
  change (r_prog (bmark q r)) with (r_prog r). change (r_mem (bmark q r)) with (r_mem r).
  change (r_priv (bmark q r)) with (r_priv r). change (r_act (bmark q r)) with (mark (r_act r) q).
  destruct (r_prog r) as [| |f k|o k|a k|a k|a d k|c a cnt t dst tag k|c a cnt t src tag k|qs k|c x k];
    try (split; [intros r' p H; inversion H; subst; reflexivity | intro H; inversion H]; fail).
  - split; [intros r' p H; inversion H | auto].
  - destruct (objat (r_mem r) a); rewrite ?writable_mark; [destruct (writable r a)|];
      split; try (intros r' p H; inversion H; subst; reflexivity); try (intro H; inversion H; fail); auto.
  - destruct (objat (r_mem r) a); rewrite ?readable_mark; [destruct (readable r a)|];
      split; try (intros r' p H; inversion H; subst; reflexivity); try (intro H; inversion H; fail); auto.
  - destruct (objat (r_mem r) a); rewrite ?writable_mark; [destruct (writable r a)|];
      split; try (intros r' p H; inversion H; subst; reflexivity); try (intro H; inversion H; fail); auto.
  - destruct (objat (r_mem r) a) as [o|]; [|split; [intros r' p H; inversion H | auto]].
    rewrite readable_mark, mark_length.
    destruct (readable r a && _ && _ && _ && _); [|split; [intros r' p H; inversion H | auto]].
    split; [|intro H; inversion H]. intros r' p H. inversion H; subst.
    unfold with_act, bmark; cbn. rewrite mark_app by exact Hq. reflexivity.
  - destruct (objat (r_mem r) a) as [o|]; [|split; [intros r' p H; inversion H | auto]].
    rewrite writable_mark, mark_length.
    destruct (writable r a && _ && _ && _ && _); [|split; [intros r' p H; inversion H | auto]].
    split; [|intro H; inversion H]. intros r' p H. inversion H; subst.
    unfold with_act, bmark; cbn. rewrite mark_app by exact Hq. reflexivity.
  - assert (E : forallb (is_active (mark (r_act r) q)) qs = forallb (is_active (r_act r)) qs).
    { induction qs; cbn; auto. rewrite active_mark. f_equal; auto. }
    rewrite E. destruct (nodupb qs && forallb (is_active (r_act r)) qs);
      [|split; [intros r' p H; inversion H | auto]].
    destruct (forallb (is_done (r_act r)) qs) eqn:D;
      [|split; [intros r' p H; inversion H | intro H; inversion H]].
    assert (D' : forallb (is_done (mark (r_act r) q)) qs = true).
    { rewrite forallb_forall in *. intros x Hx. apply done_mark. auto. }
    rewrite D'. split; [|intro H; inversion H]. intros r' p H. inversion H; subst.
    unfold with_act, bmark; cbn. rewrite forget_mark. reflexivity.
Qed.

(** a receive is outstanding on object [a] of rank [r] *)
Definition receiving (r : rst) (a : nat) : Prop :=
  exists q x, nth_error (r_act r) q = Some (Some x) /\ a_buf x = a /\ a_snd x = false.

Lemma receiving_readable r a : receiving r a -> readable r a = false.
Proof.
  intros (q & x & E & Hb & Hs). unfold readable. apply negb_false_iff. apply existsb_nth.
  exists q, (Some x). split; auto. cbn. rewrite Hb, Nat.eqb_refl, Hs. reflexivity.
Qed.
Lemma receiving_writable r a : receiving r a -> writable r a = false.
Proof.
  intros (q & x & E & Hb & Hs). unfold writable. apply negb_false_iff. apply existsb_nth.
  exists q, (Some x). split; auto. cbn. rewrite Hb, Nat.eqb_refl. reflexivity.
Qed.

Lemma objat_del_some m a (d : list V) b :
  (objat m b = None -> objat (deliver m a d) b = None) /\
  (forall o, objat m b = Some o -> exists o', objat (deliver m a d) b = Some o').
Proof.
  destruct (Nat.eq_dec a b) as [->|N].
  - rewrite objat_deliver_eq. destruct (objat m b); cbn; split; intros; try congruence; eauto.
  - rewrite objat_deliver_ne by auto. split; eauto.
Qed.

Lemma commutes_del a d r o : receiving r a -> objat (r_mem r) a = Some o -> commutes (bdel a d) r.
Proof.
  intros Hr Ho P i ns nr.
  assert (HR : readable r a = false) by (apply receiving_readable; auto).
  assert (HW : writable r a = false) by (apply receiving_writable; auto).
  unfold rank_step.
  change (r_prog (bdel a d r)) with (r_prog r). change (r_mem (bdel a d r)) with (deliver (r_mem r) a d).
  change (r_priv (bdel a d r)) with (r_priv r). change (r_act (bdel a d r)) with (r_act r).
  assert (WD : forall b, writable (bdel a d r) b = writable r b) by reflexivity.
  assert (RD : forall b, readable (bdel a d r) b = readable r b) by reflexivity.
  destruct (r_prog r) as [| |f k|oo k|b k|b k|b e k|c b cnt t dst tag k|c b cnt t src tag k|qs k|c x k];
    try (split; [intros r' p H; inversion H; subst; reflexivity | intro H; inversion H]; fail).
  - split; [intros r' p H; inversion H | auto].
  - split; [|intro H; inversion H]. intros r' p H. inversion H; subst. rewrite deliver_length.
    unfold with_mem, bdel; cbn. rewrite (@deliver_app (r_mem r) [Some oo] a d o Ho). reflexivity.
  - rewrite WD. destruct (Nat.eq_dec a b) as [->|N].
    + rewrite HW, objat_deliver_eq, Ho. cbn. split; [intros r' p H; inversion H | auto].
    + rewrite objat_deliver_ne by exact N. destruct (objat (r_mem r) b); [destruct (writable r b)|];
        (split; [intros r' p H; inversion H; subst | intro H; inversion H]); try reflexivity.
      unfold with_mem, bdel; cbn. rewrite deliver_upd_ne by exact N. reflexivity.
  - rewrite RD. destruct (Nat.eq_dec a b) as [->|N].
    + rewrite HR, objat_deliver_eq, Ho. cbn. split; [intros r' p H; inversion H | auto].
    + rewrite objat_deliver_ne by exact N. destruct (objat (r_mem r) b); [destruct (readable r b)|];
        (split; [intros r' p H; inversion H; subst | intro H; inversion H]); try reflexivity.
  - rewrite WD. destruct (Nat.eq_dec a b) as [->|N].
    + rewrite HW, objat_deliver_eq, Ho. cbn. split; [intros r' p H; inversion H | auto].
    + rewrite objat_deliver_ne by exact N. destruct (objat (r_mem r) b) eqn:Eb; [destruct (writable r b)|];
        (split; [intros r' p H; inversion H; subst | intro H; inversion H]); try reflexivity.
      unfold with_mem, bdel, set_dat; cbn. rewrite objat_deliver_ne by exact N. rewrite Eb.
      rewrite deliver_upd_ne by exact N. reflexivity.
  - rewrite RD. destruct (Nat.eq_dec a b) as [->|N].
    + rewrite HR, objat_deliver_eq, Ho. cbn. split; [intros r' p H; inversion H | auto].
    + rewrite objat_deliver_ne by exact N. destruct (objat (r_mem r) b) as [ob|];
        [destruct (readable r b && _ && _ && _ && _)|];
        (split; [intros r' p H; inversion H; subst | intro H; inversion H]); try reflexivity.
  - rewrite WD. destruct (Nat.eq_dec a b) as [->|N].
    + rewrite HW, objat_deliver_eq, Ho. cbn. split; [intros r' p H; inversion H | auto].
    + rewrite objat_deliver_ne by exact N. destruct (objat (r_mem r) b) as [ob|];
        [destruct (writable r b && _ && _ && _ && _)|];
        (split; [intros r' p H; inversion H; subst | intro H; inversion H]); try reflexivity.
  - destruct (nodupb qs && forallb (is_active (r_act r)) qs);
      [|split; [intros r' p H; inversion H | auto]].
    destruct (forallb (is_done (r_act r)) qs);
      (split; [intros r' p H; inversion H; subst | intro H; inversion H]); reflexivity.
Qed.

(** ** Commutation with collectives *)

Definition cbg (f : rst -> rst) (r : rst) : Prop :=
  r_prog (f r) = r_prog r /\ p_init (r_priv (f r)) = p_init (r_priv r) /\
  (forall x, in_ok (f r) x = in_ok r x) /\ (forall x, out_ok (f r) x = out_ok r x) /\
  (forall x, in_ok r x = true -> in_dat (f r) x = in_dat r x) /\
  (forall out d, out_ok r out = true -> coll_after (f r) out d = f (coll_after r out d)).

Lemma cbg_id r : cbg (fun r => r) r.
Proof. repeat split; auto. Qed.

Lemma cbg_comp f g r : cbg f r -> cbg g (f r) -> cbg (fun r => g (f r)) r.
Proof.
  intros (F1 & F2 & F3 & F4 & F5 & F6) (G1 & G2 & G3 & G4 & G5 & G6).
  split; [congruence|]. split; [congruence|]. split; [intro; rewrite G3; auto|].
  split; [intro; rewrite G4; auto|]. split.
  - intros x H. rewrite G5; auto. rewrite F3; auto.
  - intros out d H. rewrite G6 by (rewrite F4; auto). rewrite F6; auto.
Qed.

Lemma cbg_mark q r : cbg (bmark q) r.
Proof.
  split; [reflexivity|]. split; [reflexivity|]. split; [|split; [|split]].
  - intros [[a cnt]|]; cbn; auto. rewrite readable_mark. reflexivity.
  - intros [[a cnt]|]; cbn; auto. rewrite writable_mark. reflexivity.
  - intros [[a cnt]|]; cbn; auto.
  - intros [[a cnt]|] d _; reflexivity.
Qed.

Lemma cbg_del a d r o : receiving r a -> objat (r_mem r) a = Some o -> cbg (bdel a d) r.
Proof.
  intros Hr Ho.
  assert (HR : readable r a = false) by (apply receiving_readable; auto).
  assert (HW : writable r a = false) by (apply receiving_writable; auto).
  split; [reflexivity|]. split; [reflexivity|]. split; [|split; [|split]].
  - intros [[b cnt]|]; cbn; auto. change (readable (bdel a d r) b) with (readable r b).
    destruct (Nat.eq_dec a b) as [->|N].
    + rewrite HR, objat_deliver_eq, Ho. reflexivity.
    + rewrite objat_deliver_ne by exact N. reflexivity.
  - intros [[b cnt]|]; cbn; auto. change (writable (bdel a d r) b) with (writable r b).
    destruct (Nat.eq_dec a b) as [->|N].
    + rewrite HW, objat_deliver_eq, Ho. reflexivity.
    + rewrite objat_deliver_ne by exact N. reflexivity.
  - intros [[b cnt]|] H; cbn in *; auto. destruct (Nat.eq_dec a b) as [->|N].
    + rewrite HR in H. destruct (objat (r_mem r) b); cbn in H; congruence.
    + rewrite objat_deliver_ne by exact N. reflexivity.
  - intros [[b cnt]|] e H; [|reflexivity]. unfold coll_after, out_ok in *. destruct (Nat.eq_dec a b) as [->|N].
    + rewrite HW in H. destruct (objat (r_mem r) b); cbn in H; congruence.
    + unfold bdel, with_mem, coll_next; cbn. rewrite deliver_comm by exact N. reflexivity.
Qed.

(** ** A background effect on every rank *)

Definition pointwise (f : nat -> rst -> rst) (l l' : list rst) : Prop :=
  forall i, nth_error l' i = option_map (f i) (nth_error l i).

Lemma pointwise_length f l l' : pointwise f l l' -> length l' = length l.
Proof.
  intro H.
  assert (A : forall i, i < length l' <-> i < length l).
  { intro i. rewrite <- !nth_error_Some, (H i). destruct (nth_error l i); cbn; intuition congruence. }
  destruct (Nat.lt_trichotomy (length l') (length l)) as [L|[L|L]]; auto.
  - apply A in L. lia.
  - apply A in L. lia.
Qed.

Lemma pointwise_rk f l l' i : pointwise f l l' -> i < length l -> rk l' i = f i (rk l i).
Proof.
  intros H L. unfold rk. apply nth_error_Some in L. destruct (nth_error l i) as [r|] eqn:E; [|congruence].
  assert (E' := H i). rewrite E in E'. cbn in E'.
  rewrite (nth_error_nth _ _ _ E'), (nth_error_nth _ _ _ E). reflexivity.
Qed.

Lemma rk_nth_error (l : list rst) i : i < length l -> nth_error l i = Some (rk l i).
Proof. intro H. unfold rk. apply nth_error_nth'. exact H. Qed.

Lemma forallb_pw {A} (f g : A -> bool) l : (forall x, In x l -> f x = g x) -> forallb f l = forallb g l.
Proof.
  induction l as [|x l IH]; cbn; intro H; auto. rewrite H by auto. f_equal. apply IH. auto.
Qed.

Lemma in_coll_pw f l l' : pointwise f l l' -> (forall i, i < length l -> cbg (f i) (rk l i)) ->
  forallb (@in_coll V) l' = forallb (@in_coll V) l.
Proof.
  intros H C.
  assert (A : forall m : list rst, forallb (@in_coll V) m = forallb (fun i => in_coll (rk m i)) (seq 0 (length m))).
  { intro m. induction m as [|r m IH]; auto. cbn [length seq forallb]. f_equal. rewrite IH.
    rewrite <- seq_shift. rewrite <- (@forallb_pw nat (fun i => in_coll (rk (r :: m) (S i))) (fun i => in_coll (rk m i))).
    - clear. generalize (seq 0 (length m)). induction l as [|x l IH]; cbn; auto. f_equal; auto.
    - reflexivity. }
  rewrite !A. rewrite (pointwise_length H). apply forallb_pw. intros i Hi. apply in_seq in Hi.
  rewrite (pointwise_rk H) by lia. destruct (C i) as [E _]; [lia|]. unfold in_coll. rewrite E. reflexivity.
Qed.

Lemma coll_step_pw f l l' :
  pointwise f l l' -> (forall i, i < length l -> cbg (f i) (rk l i)) ->
  match coll_step I l with
  | None => coll_step I l' = None
  | Some None => coll_step I l' = Some None
  | Some (Some m) => exists m', coll_step I l' = Some (Some m') /\ pointwise f m m'
  end.
Proof.
  intros H C. unfold coll_step. rewrite (pointwise_length H), (in_coll_pw H C).
  destruct (Nat.ltb_spec 0 (length l)) as [L|L]; cbn [andb]; [|reflexivity].
  destruct (forallb (@in_coll V) l) eqn:IC; [|reflexivity].
  assert (CA : forall i, coll_args (rk l' i) = coll_args (rk l i)).
  { intro i. destruct (lt_dec i (length l)) as [Hi|Hi].
    - rewrite (pointwise_rk H) by lia. destruct (C i) as [E _]; [lia|]. unfold coll_args. rewrite E. reflexivity.
    - unfold rk. rewrite !nth_overflow; auto; try lia. rewrite (pointwise_length H). lia. }
  assert (CC : forall i, coll_comm (rk l' i) = coll_comm (rk l i)).
  { intro i. destruct (lt_dec i (length l)) as [Hi|Hi].
    - rewrite (pointwise_rk H) by lia. destruct (C i) as [E _]; [lia|]. unfold coll_comm. rewrite E. reflexivity.
    - unfold rk. rewrite !nth_overflow; auto; try lia. rewrite (pointwise_length H). lia. }
  rewrite !CA. set (x0 := coll_args (rk l (coll_root (coll_args (rk l 0))))).
  assert (OK : forallb (coll_ok I l' x0) (seq 0 (length l)) = forallb (coll_ok I l x0) (seq 0 (length l))).
  { apply forallb_pw. intros i Hi. apply in_seq in Hi. unfold coll_ok.
    rewrite (pointwise_length H), !CA, !CC. rewrite (pointwise_rk H) by lia.
    destruct (C i) as (_ & E2 & E3 & E4 & _); [lia|]. rewrite E2, E3, E4. reflexivity. }
  rewrite OK. destruct (forallb (coll_ok I l x0) (seq 0 (length l))) eqn:G; [|reflexivity].
  assert (OKi : forall i, i < length l ->
            in_ok (rk l i) (coll_in (length l) i (coll_args (rk l i))) = true /\
            out_ok (rk l i) (coll_out (length l) i (coll_args (rk l i))) = true).
  { intros i Hi. rewrite forallb_forall in G. assert (G' := G i). unfold coll_ok in G'.
    rewrite !andb_true_iff in G'. destruct G' as ((((((_ & _) & _) & _) & A) & B) & _); auto.
    apply in_seq. lia. }
  eexists. split; [reflexivity|].
  assert (INS : coll_ins l' = coll_ins l).
  { unfold coll_ins. rewrite (pointwise_length H). apply map_ext_in. intros j Hj. apply in_seq in Hj.
    rewrite CA, (pointwise_rk H) by lia. destruct (C j) as (_ & _ & _ & _ & E & _); [lia|].
    apply E. apply OKi. lia. }
  intro i. destruct (lt_dec i (length l)) as [Hi|Hi].
  - assert (NS : forall g : nat -> rst, nth_error (map g (seq 0 (length l))) i = Some (g i)).
    { intro g. apply map_nth_error. rewrite nth_error_nth' with (d := 0) by (rewrite seq_length; lia).
      rewrite seq_nth by lia. reflexivity. }
    rewrite !NS. cbn [option_map]. rewrite CA, INS, (pointwise_rk H) by lia.
    destruct (C i) as (_ & _ & _ & _ & _ & E); [lia|]. rewrite E; [reflexivity|]. apply OKi; auto.
  - rewrite (proj2 (nth_error_None _ i)), (proj2 (nth_error_None _ i)); auto;
      rewrite map_length, seq_length; lia.
Qed.
End Background.
