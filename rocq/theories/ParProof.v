(** * ParProof: race-free parallel loops compute what the sequential loop computes. *)
From Verif Require Import Base Scalar Mem.
Set Implicit Arguments.

(** ** memory algebra *)
Section MemFacts.
Context {F : Type} {SF : Scalar F}.
Notation mem := (mem F).
Notation prog := (prog F).

Definition validb (m : mem) (p : ptr) : bool := snd p <? length (nth (fst p) m []).
Definition mset (m : mem) (p : ptr) (v : F) : mem :=
  upd m (fst p) (upd (nth (fst p) m []) (snd p) v).

Lemma validb_iff m p : validb m p = true <-> valid m p.
Proof. unfold validb, valid. apply Nat.ltb_lt. Qed.

Lemma ld_spec m p : ld m p = if validb m p then Ok (cell m p) else UB.
Proof.
  unfold ld, validb, cell. destruct p as [b o]. cbn [fst snd].
  destruct (Nat.lt_ge_cases b (length m)) as [H|H].
  - rewrite (@rd_lt _ m b []) by auto. cbn [bind].
    destruct (Nat.ltb_spec o (length (nth b m []))).
    + now apply rd_lt.
    + now apply rd_ge.
  - rewrite rd_ge by auto. rewrite nth_overflow by auto. cbn. reflexivity.
Qed.

Lemma st_spec m p v : st m p v = if validb m p then Ok (mset m p v) else UB.
Proof.
  unfold st, validb, mset. destruct p as [b o]. cbn [fst snd].
  destruct (Nat.lt_ge_cases b (length m)) as [H|H].
  - rewrite (@rd_lt _ m b []) by auto. cbn [bind].
    destruct (Nat.ltb_spec o (length (nth b m []))).
    + rewrite wr_lt by auto. cbn [bind]. now rewrite wr_lt by auto.
    + rewrite wr_ge by auto. reflexivity.
  - rewrite rd_ge by auto. rewrite nth_overflow by auto. cbn. reflexivity.
Qed.

Lemma ld_ok m p : valid m p -> ld m p = Ok (cell m p).
Proof. intros H. rewrite ld_spec. now rewrite (proj2 (validb_iff _ _) H). Qed.
Lemma st_ok m p v : valid m p -> st m p v = Ok (mset m p v).
Proof. intros H. rewrite st_spec. now rewrite (proj2 (validb_iff _ _) H). Qed.

Lemma length_mset m p v b : length (nth b (mset m p v) []) = length (nth b m []).
Proof.
  unfold mset. rewrite nth_upd. destruct (Nat.eqb_spec (fst p) b) as [->|]; cbn [andb]; auto.
  destruct (Nat.ltb_spec b (length m)); auto. apply upd_length.
Qed.

Lemma validb_mset m p v q : validb (mset m p v) q = validb m q.
Proof. unfold validb. now rewrite length_mset. Qed.

Lemma valid_mset m p v q : valid (mset m p v) q <-> valid m q.
Proof. unfold valid. now rewrite length_mset. Qed.

Lemma same_shape_refl (m : mem) : same_shape m m.
Proof. reflexivity. Qed.
Lemma same_shape_trans (a b c : mem) : same_shape a b -> same_shape b c -> same_shape a c.
Proof. unfold same_shape. congruence. Qed.
Lemma same_shape_sym (a b : mem) : same_shape a b -> same_shape b a.
Proof. unfold same_shape. congruence. Qed.

Lemma mset_shape m p v : same_shape m (mset m p v).
Proof.
  unfold same_shape, mset. generalize (fst p) as b. intros b.
  revert b. induction m as [|l m IH]; intros [|b]; cbn; auto.
  - now rewrite upd_length.
  - f_equal. apply IH.
Qed.

Lemma shape_length_nth (m m' : mem) b : same_shape m m' -> length (nth b m []) = length (nth b m' []).
Proof.
  unfold same_shape. intros H. change 0 with (length (@nil F)).
  rewrite <- !(map_nth (@length F)). now rewrite H.
Qed.

Lemma shape_valid (m m' : mem) p : same_shape m m' -> valid m p -> valid m' p.
Proof. unfold valid. intros H. now rewrite (shape_length_nth (fst p) H). Qed.

Lemma shape_length (m m' : mem) : same_shape m m' -> length m = length m'.
Proof. intros H. rewrite <- (map_length (@length F) m), H. apply map_length. Qed.

Definition ptr_eqb (p q : ptr) : bool := (fst p =? fst q) && (snd p =? snd q).
Lemma ptr_eqb_spec p q : reflect (p = q) (ptr_eqb p q).
Proof.
  unfold ptr_eqb. destruct p as [a b], q as [c d]. cbn.
  destruct (Nat.eqb_spec a c); destruct (Nat.eqb_spec b d); cbn; constructor; congruence.
Qed.

Lemma cell_mset m p v q : valid m p -> cell (mset m p v) q = if ptr_eqb p q then v else cell m q.
Proof.
  intros Hv. unfold cell, mset, ptr_eqb. unfold valid in Hv.
  destruct p as [a b], q as [c d]. cbn [fst snd] in *.
  rewrite nth_upd. destruct (Nat.eqb_spec a c) as [->|]; cbn [andb]; auto.
  destruct (Nat.ltb_spec c (length m)).
  - rewrite nth_upd. apply Nat.ltb_lt in Hv. rewrite Hv, andb_true_r. reflexivity.
  - rewrite nth_overflow in Hv by auto. cbn in Hv. lia.
Qed.

Lemma cell_mset_same m p v : valid m p -> cell (mset m p v) p = v.
Proof. intros H. rewrite cell_mset by auto. now destruct (ptr_eqb_spec p p). Qed.
Lemma cell_mset_other m p v q : valid m p -> p <> q -> cell (mset m p v) q = cell m q.
Proof. intros H Hn. rewrite cell_mset by auto. now destruct (ptr_eqb_spec p q). Qed.

Lemma mem_ext (m m' : mem) :
  same_shape m m' -> (forall p, valid m p -> cell m p = cell m' p) -> m = m'.
Proof.
  intros Hs Hc. apply list_ext with (d := []).
  - now apply shape_length.
  - intros b Hb. apply list_ext with (d := f0).
    + now apply shape_length_nth.
    + intros o Ho. apply (Hc (b, o)). exact Ho.
Qed.

Lemma mset_comm m p v q w : p <> q -> mset (mset m p v) q w = mset (mset m q w) p v.
Proof.
  intros Hn. unfold mset. destruct p as [a b], q as [c d]. cbn [fst snd].
  destruct (Nat.eq_dec a c) as [->|Hac].
  - destruct (Nat.lt_ge_cases c (length m)) as [H|H].
    + rewrite !nth_upd_same by auto. rewrite !upd_upd. f_equal. apply upd_comm. congruence.
    + assert (G : forall (l : list F), upd m c l = m).
      { clear -H. revert c H. induction m as [|x m IH]; intros [|c] H l; cbn in *; auto; try lia.
        now rewrite IH by lia. }
      rewrite !G. reflexivity.
  - rewrite !nth_upd_other by auto. now apply upd_comm.
Qed.

(** ** footprints *)

(** every load of [c] is in [R] and every store in [W], whatever the values read *)
Fixpoint fp {A} (R W : ptr -> Prop) (c : prog A) : Prop :=
  match c with
  | Ret _ => True
  | Ld p k => R p /\ forall v, fp R W (k v)
  | St p v k => W p /\ fp R W k
  | Bad => True
  end.

Lemma fp_bind {A B} R W (c : prog A) (f : A -> prog B) :
  fp R W c -> (forall a, fp R W (f a)) -> fp R W (pbind c f).
Proof.
  induction c as [a|p k IH|p v k IH|]; cbn; intros Hc Hf; auto.
  - destruct Hc as [Hp Hk]. split; auto.
  - destruct Hc as [Hp Hk]. split; auto.
Qed.

Lemma fp_mono {A} (R W R' W' : ptr -> Prop) (c : prog A) :
  (forall p, R p -> R' p) -> (forall p, W p -> W' p) -> fp R W c -> fp R' W' c.
Proof.
  intros HR HW. induction c as [a|p k IH|p v k IH|]; cbn; auto.
  - intros [Hp Hk]. split; auto.
  - intros [Hp Hk]. split; auto.
Qed.

Lemma fp_piter {S} R W n lo (body : nat -> S -> prog S) s :
  (forall i s, lo <= i < lo + n -> fp R W (body i s)) -> fp R W (piter n lo body s).
Proof.
  revert lo s; induction n as [|n IH]; intros lo s H; cbn; auto.
  apply fp_bind.
  - apply H. lia.
  - intros a. apply IH. intros. apply H. lia.
Qed.

Lemma fp_pfor {S} R W lo hi (body : nat -> S -> prog S) s :
  (forall i s, lo <= i < hi -> fp R W (body i s)) -> fp R W (pfor lo hi body s).
Proof. intros H. apply fp_piter. intros. apply H. lia. Qed.

Lemma fp_plift {A} R W (r : res A) : fp R W (plift r).
Proof. destruct r; cbn; auto. Qed.

(** ** execution with step count *)
Fixpoint runc {A} (c : prog A) (m : mem) : res (mem * A * nat) :=
  match c with
  | Ret a => Ok (m, a, 0)
  | Ld p k => v <- ld m p ;; '(m', a, n) <- runc (k v) m ;; Ok (m', a, S n)
  | St p v k => m1 <- st m p v ;; '(m', a, n) <- runc k m1 ;; Ok (m', a, S n)
  | Bad => UB
  end.

Lemma run_runc {A} (c : prog A) m : run c m = ('(m', a, _) <- runc c m ;; Ok (m', a)).
Proof.
  revert m; induction c as [a|p k IH|p v k IH|]; intros m; cbn; auto.
  - destruct (ld m p) as [v| | | |]; cbn; auto. rewrite IH.
    destruct (runc (k v) m) as [[[m' a] n]| | | |]; reflexivity.
  - destruct (st m p v) as [m1| | | |]; cbn; auto. rewrite IH.
    destruct (runc k m1) as [[[m' a] n]| | | |]; reflexivity.
Qed.

Lemma runc_ex {A} (c : prog A) m m' a : run c m = Ok (m', a) -> exists n, runc c m = Ok (m', a, n).
Proof.
  rewrite run_runc. destruct (runc c m) as [[[m1 a1] n]| | | |]; cbn; intros H; inversion H; subst; eauto.
Qed.

Lemma runc_run {A} (c : prog A) m m' a n : runc c m = Ok (m', a, n) -> run c m = Ok (m', a).
Proof. rewrite run_runc. intros ->. reflexivity. Qed.

Lemma runc_shape {A} (c : prog A) : forall m m' a n, runc c m = Ok (m', a, n) -> same_shape m m'.
Proof.
  induction c as [a0|p k IH|p v k IH|]; intros m m' a n H; cbn in H.
  - inversion H; subst. apply same_shape_refl.
  - dob H. destruct (runc (k a0) m) as [[[m1 a1] n1]| | | |] eqn:E1; cbn in H; inversion H; subst.
    eapply IH; eauto.
  - rewrite st_spec in H. destruct (validb m p); cbn in H; [|discriminate].
    destruct (runc k (mset m p v)) as [[[m1 a1] n1]| | | |] eqn:E1; cbn in H; inversion H; subst.
    eapply same_shape_trans; [apply mset_shape|]. eapply IH; eauto.
  - discriminate.
Qed.

Lemma run_shape {A} (c : prog A) m m' a : run c m = Ok (m', a) -> same_shape m m'.
Proof. intros H. destruct (runc_ex _ _ H) as [n Hn]. eapply runc_shape; eauto. Qed.

(** a cell outside the write footprint keeps its value *)
Lemma runc_frame {A} (c : prog A) R W p : fp R W c -> ~ W p ->
  forall m m' a n, runc c m = Ok (m', a, n) -> cell m' p = cell m p.
Proof.
  induction c as [a0|q k IH|q v k IH|]; intros Hf HW m m' a n H; cbn in H, Hf.
  - inversion H; subst. reflexivity.
  - destruct Hf as [Hq Hk]. dob H.
    destruct (runc (k a0) m) as [[[m1 a1] n1]| | | |] eqn:E1; cbn in H; inversion H; subst.
    eapply IH; eauto.
  - destruct Hf as [Hq Hk]. rewrite st_spec in H.
    destruct (validb m q) eqn:Hv; cbn in H; [|discriminate].
    destruct (runc k (mset m q v)) as [[[m1 a1] n1]| | | |] eqn:E1; cbn in H; inversion H; subst.
    rewrite (IH Hk HW _ _ _ _ E1). apply cell_mset_other.
    + now apply validb_iff.
    + intros ->. auto.
  - discriminate.
Qed.

(** a store outside the footprint commutes with the whole program *)
Lemma runc_mset {A} (c : prog A) R W p w : fp R W c -> ~ R p -> ~ W p ->
  forall m m' a n, valid m p -> runc c m = Ok (m', a, n) -> runc c (mset m p w) = Ok (mset m' p w, a, n).
Proof.
  induction c as [a0|q k IH|q v k IH|]; intros Hf HR HW m m' a n Hp H; cbn in H, Hf |- *.
  - inversion H; subst. reflexivity.
  - destruct Hf as [Hq Hk]. rewrite ld_spec in H |- *. rewrite validb_mset.
    destruct (validb m q) eqn:Hv; cbn [bind] in H |- *; [|discriminate].
    rewrite cell_mset_other by (auto; intros ->; auto).
    destruct (runc (k (cell m q)) m) as [[[m1 a1] n1]| | | |] eqn:E1; cbn in H; inversion H; subst.
    rewrite (IH _ (Hk _) HR HW _ _ _ _ Hp E1). reflexivity.
  - destruct Hf as [Hq Hk]. rewrite st_spec in H |- *. rewrite validb_mset.
    destruct (validb m q) eqn:Hv; cbn [bind] in H |- *; [|discriminate].
    destruct (runc k (mset m q v)) as [[[m1 a1] n1]| | | |] eqn:E1; cbn in H; inversion H; subst.
    rewrite mset_comm by (intros ->; auto).
    rewrite (IH Hk HR HW (mset m q v) m' a n1); [reflexivity| |exact E1]. now apply valid_mset.
  - discriminate.
Qed.

(** ** sequences of programs *)
Fixpoint runs (l : list (prog unit)) (m : mem) : res (mem * nat) :=
  match l with
  | [] => Ok (m, 0)
  | c :: l' => '(m1, _, n) <- runc c m ;; '(m2, n') <- runs l' m1 ;; Ok (m2, n + n')
  end.

Lemma runs_cons_inv c l m m' n : runs (c :: l) m = Ok (m', n) ->
  exists m1 u n1 n2, runc c m = Ok (m1, u, n1) /\ runs l m1 = Ok (m', n2) /\ n = n1 + n2.
Proof.
  cbn. intros H. destruct (runc c m) as [[[m1 u] n1]| | | |] eqn:E; cbn in H; try discriminate.
  destruct (runs l m1) as [[m2 n2]| | | |] eqn:E2; cbn in H; inversion H; subst.
  exists m1, u, n1, n2. auto.
Qed.

Lemma runs_cons c l m m1 u n1 m' n2 :
  runc c m = Ok (m1, u, n1) -> runs l m1 = Ok (m', n2) -> runs (c :: l) m = Ok (m', n1 + n2).
Proof. intros H1 H2. cbn. rewrite H1. cbn. rewrite H2. reflexivity. Qed.

Lemma runs_app l1 l2 m m1 n1 m2 n2 :
  runs l1 m = Ok (m1, n1) -> runs l2 m1 = Ok (m2, n2) -> runs (l1 ++ l2) m = Ok (m2, n1 + n2).
Proof.
  revert m m1 n1; induction l1 as [|c l1 IH]; intros m m1 n1 H1 H2.
  - cbn in H1. inversion H1; subst. exact H2.
  - apply runs_cons_inv in H1. destruct H1 as (ma & u & na & nb & E1 & E2 & ->).
    rewrite <- Nat.add_assoc. cbn [app]. eapply runs_cons; eauto.
Qed.

Lemma runs_app_inv l1 l2 m m2 n :
  runs (l1 ++ l2) m = Ok (m2, n) ->
  exists m1 n1 n2, runs l1 m = Ok (m1, n1) /\ runs l2 m1 = Ok (m2, n2) /\ n = n1 + n2.
Proof.
  revert m n; induction l1 as [|c l1 IH]; intros m n H; cbn [app] in H.
  - exists m, 0, n. auto.
  - apply runs_cons_inv in H. destruct H as (ma & u & na & nb & E1 & E2 & ->).
    destruct (IH _ _ E2) as (m1 & n1 & n2 & F1 & F2 & ->).
    exists m1, (na + n1), n2. split; [eapply runs_cons; eauto|]. split; auto. lia.
Qed.

Lemma runs_shape l : forall m m' n, runs l m = Ok (m', n) -> same_shape m m'.
Proof.
  induction l as [|c l IH]; intros m m' n H.
  - inversion H. apply same_shape_refl.
  - apply runs_cons_inv in H. destruct H as (ma & u & na & nb & E1 & E2 & ->).
    eapply same_shape_trans; [eapply runc_shape; eauto|eapply IH; eauto].
Qed.

Lemma runs_frame l R W p : Forall (fp R W) l -> ~ W p ->
  forall m m' n, runs l m = Ok (m', n) -> cell m' p = cell m p.
Proof.
  intros Hl HW; induction Hl as [|c l Hc Hl IH]; intros m m' n H.
  - inversion H. reflexivity.
  - apply runs_cons_inv in H. destruct H as (ma & u & na & nb & E1 & E2 & ->).
    rewrite (IH _ _ _ E2). eapply runc_frame; eauto.
Qed.

Lemma runs_mset l R W p w : Forall (fp R W) l -> ~ R p -> ~ W p ->
  forall m m' n, valid m p -> runs l m = Ok (m', n) -> runs l (mset m p w) = Ok (mset m' p w, n).
Proof.
  intros Hl HR HW; induction Hl as [|c l Hc Hl IH]; intros m m' n Hp H.
  - inversion H; subst. reflexivity.
  - apply runs_cons_inv in H. destruct H as (ma & u & na & nb & E1 & E2 & ->).
    eapply runs_cons.
    + eapply runc_mset; eauto.
    + apply IH; auto. eapply shape_valid; [eapply runc_shape; eauto|auto].
Qed.

(** two independent programs commute *)
Lemma runc_comm {A B} (c1 : prog A) (c2 : prog B) R1 W1 R2 W2 :
  fp R1 W1 c1 -> fp R2 W2 c2 ->
  (forall p, W1 p -> ~ R2 p /\ ~ W2 p) -> (forall p, W2 p -> ~ R1 p /\ ~ W1 p) ->
  forall m m1 a n1 m2 b n2,
  runc c1 m = Ok (m1, a, n1) -> runc c2 m1 = Ok (m2, b, n2) ->
  exists m1', runc c2 m = Ok (m1', b, n2) /\ runc c1 m1' = Ok (m2, a, n1).
Proof.
  intros H1 H2 D1 D2.
  induction c1 as [a0|q k IH|q v k IH|]; intros m m1 a n1 m2 b n2 E1 E2; cbn in E1, H1.
  - inversion E1; subst. exists m2. split; auto.
  - destruct H1 as [Hq Hk]. rewrite ld_spec in E1.
    destruct (validb m q) eqn:Hv; cbn [bind] in E1; [|discriminate].
    destruct (runc (k (cell m q)) m) as [[[mx ax] nx]| | | |] eqn:Ex; cbn in E1; inversion E1; subst.
    destruct (IH _ (Hk _) _ _ _ _ _ _ _ Ex E2) as (m1' & G1 & G2).
    exists m1'. split; auto. cbn. rewrite ld_spec.
    assert (Hs : same_shape m m1') by (eapply runc_shape; eauto).
    apply validb_iff in Hv. rewrite (proj2 (validb_iff _ _) (shape_valid Hs Hv)). cbn [bind].
    assert (Hc : cell m1' q = cell m q).
    { eapply runc_frame; [exact H2| |exact G1]. intros HW. apply (proj1 (D2 _ HW)). auto. }
    rewrite Hc, G2. reflexivity.
  - destruct H1 as [Hq Hk]. rewrite st_spec in E1.
    destruct (validb m q) eqn:Hv; cbn [bind] in E1; [|discriminate].
    destruct (runc k (mset m q v)) as [[[mx ax] nx]| | | |] eqn:Ex; cbn in E1; inversion E1; subst.
    destruct (IH Hk _ _ _ _ _ _ _ Ex E2) as (m1' & G1 & G2).
    (* c2 from mset m q v; undo: c2 run from m *)
    apply validb_iff in Hv.
    (* restore the old value *)
    assert (Hm : mset (mset m q v) q (cell m q) = m).
    { apply mem_ext.
      - apply same_shape_sym. eapply same_shape_trans; apply mset_shape.
      - intros p Hp. rewrite cell_mset by (now apply valid_mset).
        destruct (ptr_eqb_spec q p) as [->|Hn]; auto. now apply cell_mset_other. }
    assert (G3 : runc c2 m = Ok (mset m1' q (cell m q), b, n2)).
    { rewrite <- Hm at 1. eapply runc_mset; [exact H2| | | |exact G1].
      - apply D1; auto.
      - apply D1; auto.
      - now apply valid_mset. }
    exists (mset m1' q (cell m q)). split; auto. cbn. rewrite st_spec.
    assert (Hs : same_shape m m1').
    { eapply same_shape_trans; [apply (mset_shape m q v)|eapply runc_shape; eauto]. }
    assert (Hv' : valid m1' q) by (eapply shape_valid; eauto).
    rewrite (proj2 (validb_iff _ _)) by (now apply valid_mset). cbn [bind].
    assert (Hm2 : mset (mset m1' q (cell m q)) q v = m1').
    { apply mem_ext.
      - apply same_shape_sym. eapply same_shape_trans; apply mset_shape.
      - intros p Hp. rewrite cell_mset by (now apply valid_mset).
        destruct (ptr_eqb_spec q p) as [<-|Hn].
        + rewrite (@runc_frame _ c2 R2 W2 q H2) with (2 := G1).
          * symmetry. now apply cell_mset_same.
          * apply D1; auto.
        + now apply cell_mset_other. }
    rewrite Hm2, G2. reflexivity.
  - discriminate.
Qed.

(** ** the footprint of a loop *)

(** iterations i <> j never touch an element the other one writes *)
Definition race_free (N : nat) (body : nat -> prog unit) : Prop :=
  exists R W : nat -> ptr -> Prop,
    (forall i, i < N -> fp (R i) (W i) (body i)) /\
    (forall i j p, i < N -> j < N -> i <> j -> W i p -> ~ R j p /\ ~ W j p).

Lemma runs_perm N body : race_free N body ->
  forall l l', Permutation l l' -> NoDup l -> Forall (fun i => i < N) l ->
  forall m m' n, runs (map body l) m = Ok (m', n) -> runs (map body l') m = Ok (m', n).
Proof.
  intros (R & W & Hf & Hd) l l' HP; induction HP as [|x l l' HP IH|x y l|l l' l'' HP1 IH1 HP2 IH2];
    intros HN HF m m' n H; cbn [map] in *; auto.
  - apply runs_cons_inv in H. destruct H as (ma & u & na & nb & E1 & E2 & ->).
    inversion HN; inversion HF; subst. eapply runs_cons; eauto.
  - apply runs_cons_inv in H. destruct H as (ma & u & na & nb & E1 & E2 & ->).
    apply runs_cons_inv in E2. destruct E2 as (mb & u' & nc & nd & E2 & E3 & ->).
    inversion HN as [|? ? Hin HN']; inversion HF as [|? ? Hx HF']; inversion HF' as [|? ? Hy HF'']; subst.
    assert (Hne : y <> x) by (intros ->; apply Hin; cbn; auto).
    destruct (@runc_comm unit unit (body y) (body x) (R y) (W y) (R x) (W x)) with (m := m) (m1 := ma)
      (a := u) (n1 := na) (m2 := mb) (b := u') (n2 := nc) as (m1' & G1 & G2);
      try (intros p Hp; eapply Hd; [| | |exact Hp]; auto; fail); auto.
    replace (na + (nc + nd)) with (nc + (na + nd)) by lia.
    eapply runs_cons; [exact G1|]. eapply runs_cons; eauto.
  - apply IH2.
    + eapply Permutation_NoDup; eauto.
    + eapply Permutation_Forall; eauto.
    + apply IH1; auto.
Qed.

(** a thread = its iterations in sequence *)
Lemma runc_pbind {A B} (c : prog A) (f : A -> prog B) m :
  runc (pbind c f) m = ('(m1, a, n) <- runc c m ;; '(m2, b, n') <- runc (f a) m1 ;; Ok (m2, b, n + n')).
Proof.
  revert m; induction c as [a|p k IH|p v k IH|]; intros m; cbn; auto.
  - destruct (runc (f a) m) as [[[m1 b] n]| | | |]; reflexivity.
  - destruct (ld m p) as [v| | | |]; cbn; auto. rewrite IH.
    destruct (runc (k v) m) as [[[m1 b] n]| | | |]; cbn; auto.
    destruct (runc (f b) m1) as [[[m2 b2] n2]| | | |]; cbn; auto.
  - destruct (st m p v) as [m1| | | |]; cbn; auto. rewrite IH.
    destruct (runc k m1) as [[[m2 b] n]| | | |]; cbn; auto.
    destruct (runc (f b) m2) as [[[m3 b3] n3]| | | |]; cbn; auto.
Qed.

Lemma run_pbind {A B} (c : prog A) (f : A -> prog B) m :
  run (pbind c f) m = ('(m1, a) <- run c m ;; run (f a) m1).
Proof.
  revert m; induction c as [a|p k IH|p v k IH|]; intros m; cbn; auto.
  - destruct (ld m p) as [v| | | |]; cbn; auto.
  - destruct (st m p v) as [m1| | | |]; cbn; auto.
Qed.

Lemma run_piter {S} n lo (body : nat -> S -> prog S) s m :
  run (piter n lo body s) m =
  iter_ n lo (fun i st => run (body i (snd st)) (fst st)) (m, s).
Proof.
  revert lo s m; induction n as [|n IH]; intros lo s m; cbn; auto.
  rewrite run_pbind. cbn. destruct (run (body lo s) m) as [[m1 s1]| | | |]; cbn; auto.
Qed.

Lemma run_pfor {S} lo hi (body : nat -> S -> prog S) s m :
  run (pfor lo hi body s) m = for_ lo hi (fun i st => run (body i (snd st)) (fst st)) (m, s).
Proof. apply run_piter. Qed.

Lemma run_plift {A} (r : res A) (m : mem) a : r = Ok a -> run (plift r) m = Ok (m, a).
Proof. intros ->. reflexivity. Qed.

Lemma runc_pseq l : forall m m' n, runs l m = Ok (m', n) <-> runc (pseq l) m = Ok (m', tt, n).
Proof.
  induction l as [|c l IH]; intros m m' n; cbn.
  - split; intros H; inversion H; subst; auto.
  - rewrite runc_pbind. destruct (runc c m) as [[[m1 []] n1]| | | |]; cbn; try (split; discriminate).
    split; intros H.
    + destruct (runs l m1) as [[m2 n2]| | | |] eqn:E; cbn in H; try discriminate.
      apply IH in E. rewrite E. cbn. inversion H; subst. reflexivity.
    + destruct (runc (pseq l) m1) as [[[m2 []] n2]| | | |] eqn:E; cbn in H; try discriminate.
      apply IH in E. rewrite E. cbn. inversion H; subst. reflexivity.
Qed.

Lemma runs_threads body d : forall m m' n,
  runs (threads body d) m = Ok (m', n) <-> runs (map body (concat d)) m = Ok (m', n).
Proof.
  induction d as [|its d IH]; intros m m' n; [split; auto|].
  cbn [concat threads map]. rewrite map_app. fold (threads body d). split; intros H.
  - apply runs_cons_inv in H. destruct H as (ma & [] & na & nb & E1 & E2 & ->).
    eapply runs_app; [apply runc_pseq; exact E1|apply IH; exact E2].
  - apply runs_app_inv in H. destruct H as (m1 & n1 & n2 & E1 & E2 & ->).
    eapply runs_cons; [apply runc_pseq; exact E1|apply IH; exact E2].
Qed.

(** ** simulation of one parallel step *)

(** a pool of pairwise independent threads: thread [k] has footprint [R k], [W k] *)
Definition indep_pool (R W : nat -> ptr -> Prop) (l : list (prog unit)) : Prop :=
  (forall k c, nth_error l k = Some c -> fp (R k) (W k) c) /\
  (forall j k p, j < length l -> k < length l -> j <> k -> W j p -> ~ R k p /\ ~ W k p).

Lemma indep_step R W l1 c c' l2 :
  indep_pool R W (l1 ++ c :: l2) -> fp (R (length l1)) (W (length l1)) c' ->
  indep_pool R W (l1 ++ c' :: l2).
Proof.
  intros [H1 H2] Hc'. split.
  - intros k x Hk. destruct (Nat.lt_trichotomy k (length l1)) as [Hlt|[->|Hgt]].
    + apply H1. rewrite nth_error_app1 in Hk |- * by auto. auto.
    + rewrite nth_error_app2 in Hk by auto. rewrite Nat.sub_diag in Hk. cbn in Hk. congruence.
    + apply H1. rewrite nth_error_app2 in Hk |- * by lia.
      destruct (k - length l1) as [|j] eqn:E; [lia|]. exact Hk.
  - rewrite app_length in *. cbn [length] in *. auto.
Qed.

Lemma pool_prefix R W l1 c l2 : indep_pool R W (l1 ++ c :: l2) ->
  exists R1 W1, Forall (fp R1 W1) l1 /\
    (forall p, W1 p -> ~ R (length l1) p /\ ~ W (length l1) p) /\
    (forall p, W (length l1) p -> ~ R1 p /\ ~ W1 p).
Proof.
  intros [H1 H2]. rewrite app_length in H2. cbn [length] in H2.
  exists (fun p => exists j, j < length l1 /\ R j p), (fun p => exists j, j < length l1 /\ W j p).
  split; [|split].
  - apply Forall_forall. intros x Hx. apply In_nth_error in Hx. destruct Hx as [j Hj].
    assert (j < length l1) by (apply nth_error_Some; congruence).
    eapply fp_mono; [| |apply (H1 j)]; [eauto|eauto|]. now rewrite nth_error_app1.
  - intros p (j & Hj & Hp). eapply H2; [| | |exact Hp]; lia.
  - intros p Hp. split; intros (j & Hj & Hq).
    + destruct (H2 (length l1) j p) as [A _]; auto; lia.
    + destruct (H2 (length l1) j p) as [_ A]; auto; lia.
Qed.

Lemma pool_head R W l1 c l2 : indep_pool R W (l1 ++ c :: l2) -> fp (R (length l1)) (W (length l1)) c.
Proof.
  intros [H1 _]. apply H1. rewrite nth_error_app2 by lia. now rewrite Nat.sub_diag.
Qed.

(** one parallel step = the first step of a sequential execution with one step more *)
Lemma pstep_sim R W m l m' l' mf n :
  indep_pool R W l -> runs l m = Ok (mf, n) -> pstep (m, l) (m', l') ->
  indep_pool R W l' /\ exists n', n = S n' /\ runs l' m' = Ok (mf, n').
Proof.
  intros Hi Hr Hs. inversion Hs as [m0 l1 l2 p k v E|m0 m1 l1 l2 p v k E]; subst.
  - pose proof (pool_head _ _ _ Hi) as [Hp Hk].
    split; [eapply indep_step; eauto|].
    destruct (pool_prefix _ _ _ Hi) as (R1 & W1 & HF & D1 & D2).
    apply runs_app_inv in Hr. destruct Hr as (ma & na & nb & E1 & E2 & ->).
    apply runs_cons_inv in E2. destruct E2 as (mb & u & nc & nd & E2 & E3 & ->).
    cbn in E2. dob E2.
    destruct (runc (k a) ma) as [[[mc uc] ne]| | | |] eqn:E4; cbn in E2; inversion E2; subst.
    assert (a = v).
    { rewrite ld_spec in E, E0.
      destruct (validb m' p); [|discriminate]. destruct (validb ma p); [|discriminate].
      inversion E; inversion E0; subst. eapply runs_frame; eauto.
      intros HW. apply (proj1 (D1 _ HW)). exact Hp. }
    subst a. exists (na + (ne + nd)). split; [lia|].
    eapply runs_app; eauto. eapply runs_cons; eauto.
  - pose proof (pool_head _ _ _ Hi) as [Hp Hk].
    split; [eapply indep_step; eauto|].
    destruct (pool_prefix _ _ _ Hi) as (R1 & W1 & HF & D1 & D2).
    apply runs_app_inv in Hr. destruct Hr as (ma & na & nb & E1 & E2 & ->).
    apply runs_cons_inv in E2. destruct E2 as (mb & u & nc & nd & E2 & E3 & ->).
    cbn in E2. dob E2.
    destruct (runc k a) as [[[mc uc] ne]| | | |] eqn:E4; cbn in E2; inversion E2; subst.
    rewrite st_spec in E, E0. destruct (validb m p) eqn:Hv; [|discriminate].
    destruct (validb ma p); [|discriminate]. inversion E; inversion E0; subst.
    exists (na + (ne + nd)). split; [lia|].
    eapply runs_app; [|eapply runs_cons; eauto].
    eapply runs_mset; [exact HF| | | |exact E1].
    + apply D2. exact Hp.
    + apply D2. exact Hp.
    + now apply validb_iff.
Qed.

Lemma psteps_sim R W k c c' : psteps k c c' -> forall mf n,
  indep_pool R W (snd c) -> runs (snd c) (fst c) = Ok (mf, n) ->
  indep_pool R W (snd c') /\ exists n', n = k + n' /\ runs (snd c') (fst c') = Ok (mf, n').
Proof.
  intros H; induction H as [c|k c c' c'' Hs Hss IH]; intros mf n Hi Hr.
  - split; auto. exists n. auto.
  - destruct c as [m l], c' as [m' l']. cbn [fst snd] in *.
    destruct (pstep_sim Hi Hr Hs) as (Hi' & n1 & -> & Hr').
    destruct (IH _ _ Hi' Hr') as (Hi'' & n2 & -> & Hr'').
    split; auto. exists n2. split; [lia|auto].
Qed.

Lemma runs_finished l m : finished l -> runs l m = Ok (m, 0).
Proof.
  intros H; induction H as [|c l -> H IH]; auto. cbn. rewrite IH. reflexivity.
Qed.

Lemma runs_not_faulty l : forall m mf n, runs l m = Ok (mf, n) -> ~ Exists (faulty m) l.
Proof.
  induction l as [|c l IH]; intros m mf n H HE; [inversion HE|].
  apply runs_cons_inv in H. destruct H as (m1 & u & n1 & n2 & E1 & E2 & ->).
  inversion HE as [? ? Hf|? ? Hf]; subst.
  - destruct c as [a|p k|p v k|]; cbn in E1, Hf; auto; try discriminate.
    + dob E1. apply Hf. eauto.
    + dob E1. apply Hf. eauto.
  - apply (IH _ _ _ E2). pose proof (runc_shape _ _ E1) as Hs.
    clear -SF Hf Hs. induction Hf as [c l Hc|c l Hf IHf]; [left|right; auto].
    destruct c as [a|p k|p v k|]; cbn in *; auto.
    + intros [v Hv]. apply Hc. rewrite ld_spec in Hv. destruct (validb m1 p) eqn:E; [|discriminate].
      exists (cell m p). apply ld_ok. apply validb_iff in E.
      eapply shape_valid; [apply same_shape_sym|]; eauto.
    + intros [m' Hv]. apply Hc. rewrite st_spec in Hv. destruct (validb m1 p) eqn:E; [|discriminate].
      exists (mset m p v). apply st_ok. apply validb_iff in E.
      eapply shape_valid; [apply same_shape_sym|]; eauto.
Qed.

(** the sequential loop, as [runs] *)
Lemma seq_for_runs N body m m' :
  seq_for N body m = Ok m' <-> exists n, runs (map body (seq 0 N)) m = Ok (m', n).
Proof.
  unfold seq_for, for_. rewrite Nat.sub_0_r. generalize 0 as lo. revert m.
  induction N as [|N IH]; intros m lo; cbn [iter_ seq map].
  - split; [intros H; inversion H; exists 0; reflexivity|intros [n H]; inversion H; reflexivity].
  - split.
    + intros H. dob H. dob E. destruct a0 as [m1 u]. inversion E; subst.
      apply IH in H. destruct H as [n H]. destruct (runc_ex _ _ E0) as [n0 E1].
      exists (n0 + n). eapply runs_cons; eauto.
    + intros [n H]. apply runs_cons_inv in H. destruct H as (m1 & u & n1 & n2 & E1 & E2 & ->).
      rewrite (runc_run _ _ E1). cbn [bind]. apply IH. eauto.
Qed.

(** executing one thread alone is a parallel execution *)
Lemma psteps_trans a b (c1 c2 c3 : mem * list (prog unit)) : psteps a c1 c2 -> psteps b c2 c3 -> psteps (a + b) c1 c3.
Proof. intros H; induction H; cbn; auto. intros. econstructor; eauto. Qed.

Lemma psteps_run (c : prog unit) : forall m m' n,
  runc c m = Ok (m', tt, n) -> psteps n (m, [c]) (m', [Ret tt]).
Proof.
  induction c as [a|p k IH|p v k IH|]; intros m m' n H; cbn in H.
  - destruct a. inversion H; subst. constructor.
  - dob H. destruct (runc (k a) m) as [[[m1 u] n1]| | | |] eqn:E1; cbn in H; inversion H; subst.
    econstructor; [exact (@pstep_ld F m [] [] p k a E)|]. cbn [app]. apply IH. auto.
  - dob H. destruct (runc k a) as [[[m1 u] n1]| | | |] eqn:E1; cbn in H; inversion H; subst.
    econstructor; [exact (@pstep_st F m a [] [] p v k E)|]. cbn [app]. apply IH. auto.
  - discriminate.
Qed.

(** ** the theorem *)

Lemma threads_indep N body d : race_free N body -> distribution N d ->
  exists R W, indep_pool R W (threads body d).
Proof.
  intros (R & W & Hf & Hd) HD.
  assert (HN : NoDup (concat d)) by (eapply Permutation_NoDup; [symmetry; exact HD|apply seq_NoDup]).
  assert (HF : forall i, In i (concat d) -> i < N).
  { intros i Hi. apply (Permutation_in _ HD) in Hi. apply in_seq in Hi. lia. }
  exists (fun t p => exists i, In i (nth t d []) /\ R i p), (fun t p => exists i, In i (nth t d []) /\ W i p).
  assert (Hin : forall t i, In i (nth t d []) -> In i (concat d)).
  { intros t i Hi. apply in_concat. exists (nth t d []). split; auto.
    destruct (Nat.lt_ge_cases t (length d)); [now apply nth_In|].
    rewrite nth_overflow in Hi by auto. destruct Hi. }
  split.
  - intros t c Ht. unfold threads in Ht. rewrite nth_error_map in Ht.
    destruct (nth_error d t) as [its|] eqn:E; cbn in Ht; [|discriminate]. inversion Ht; subst.
    assert (Hits : nth t d [] = its) by (now apply nth_error_nth). rewrite Hits.
    assert (G : forall i, In i its -> In i its /\ i < N).
    { intros i Hi. split; auto. apply HF. eapply Hin. rewrite Hits. exact Hi. }
    clear Ht. revert G. set (its' := its) at 1 5. clearbody its'.
    induction its' as [|i l IH]; intros G; cbn [map pseq]; [exact I|].
    apply fp_bind.
    + destruct (G i) as [Gi GN]; [cbn; auto|]. eapply fp_mono; [| |apply Hf; exact GN]; eauto.
    + intros _. apply IH. intros j Hj. apply G. cbn. auto.
  - intros t u p Ht Hu Htu (i & Hi & Hp). unfold threads in Ht, Hu. rewrite map_length in Ht, Hu.
    assert (Hne : forall j, In j (nth u d []) -> i <> j).
    { intros j Hj ->. clear -HN Ht Hu Htu Hi Hj. revert t u Ht Hu Htu Hi Hj HN.
      induction d as [|its d IH]; intros t u Ht Hu Htu Hi Hj HN; cbn in *; [lia|].
      assert (HN2 : NoDup (concat d)).
      { clear -HN. induction its as [|x its IH]; cbn in HN; auto. inversion HN; auto. }
      assert (HX : forall j0, In j0 its -> ~ In j0 (concat d)).
      { clear -HN. induction its as [|x its IH]; intros y Hy; cbn in HN, Hy; [destruct Hy|].
        inversion HN as [|? ? Hx HN']; subst. destruct Hy as [<-|Hy].
        - intros Hy. apply Hx. apply in_or_app. auto.
        - apply IH; auto. }
      assert (HY : forall t0 j0, In j0 (nth t0 d []) -> In j0 (concat d)).
      { intros t0 j0 Hj0. apply in_concat. exists (nth t0 d []). split; auto.
        destruct (Nat.lt_ge_cases t0 (length d)); [now apply nth_In|].
        rewrite nth_overflow in Hj0 by auto. destruct Hj0. }
      destruct t as [|t], u as [|u]; try lia.
      - apply (HX j Hi). eapply HY; eauto.
      - apply (HX j Hj). eapply HY; eauto.
      - apply (IH t u); auto; lia. }
    split; intros (j & Hj & Hq).
    + destruct (Hd i j p) as [A _]; auto; apply HF; eapply Hin; eauto.
    + destruct (Hd i j p) as [_ A]; auto; apply HF; eapply Hin; eauto.
Qed.

Theorem race_free_par N body m m' :
  race_free N body -> seq_for N body m = Ok m' -> par_result N body m m'.
Proof.
  intros HR HS. apply seq_for_runs in HS. destruct HS as [B HB].
  assert (HT : forall d, distribution N d -> runs (threads body d) m = Ok (m', B)).
  { intros d HD. apply runs_threads. eapply runs_perm; [exact HR| | | |exact HB].
    - symmetry. exact HD.
    - apply seq_NoDup.
    - apply Forall_forall. intros i Hi. apply in_seq in Hi. lia. }
  split; [|split; [|split]].
  - exists [seq 0 N], B, [Ret tt]. split; [|split].
    + unfold distribution. cbn. now rewrite app_nil_r.
    + cbn. apply psteps_run. apply runc_pseq. exact HB.
    + repeat constructor.
  - intros m1 (d & n & l & HD & Hs & Hfin).
    destruct (threads_indep HR HD) as (R & W & Hi).
    destruct (psteps_sim Hs Hi (HT d HD)) as (_ & n' & _ & Hr). cbn [fst snd] in Hr.
    rewrite runs_finished in Hr by auto. congruence.
  - intros (d & n & m1 & l & HD & Hs & Hfault).
    destruct (threads_indep HR HD) as (R & W & Hi).
    destruct (psteps_sim Hs Hi (HT d HD)) as (_ & n' & _ & Hr). cbn [fst snd] in Hr.
    exact (runs_not_faulty Hr Hfault).
  - exists B. intros d n c HD Hs.
    destruct (threads_indep HR HD) as (R & W & Hi).
    destruct (psteps_sim Hs Hi (HT d HD)) as (_ & n' & -> & _). lia.
Qed.

End MemFacts.
