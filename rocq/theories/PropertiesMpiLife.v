(** * PropertiesMpiLife: C113, the life cycle of monolish::mpi::comm and its dependence on assertions.

    [answers] of a history [h] are what a process sees that makes the calls [h] one after the other from its start;
    [next h c] is what the call [c] answers after the calls [h] have all returned. *)
From Coq Require Import List Arith Bool Lia.
From Verif Require Import MpiLifeModel.
Import ListNotations.

(** ** Specification *)
Definition lives (a : ans) : bool := match a with Died | Undefined => false | _ => true end.
(** all calls of [h] return *)
Definition survives (B : build) (ra si : nat -> nat) (s : life) (h : list call) : Prop :=
  length (run B ra si s h) = length h /\ forallb lives (run B ra si s h) = true.
(** the answer to [c] after [h] *)
Definition next (B : build) (ra si : nat -> nat) (s : life) (h : list call) (c : call) (a : ans) : Prop :=
  run B ra si s (h ++ [c]) = run B ra si s h ++ [a].

Definition begun (h : list call) : Prop := In Init h \/ In InitArgs h.
Definition ended (h : list call) : Prop := In Finalize h.
(** no communicator was set, and Init was called *)
Definition unset (h : list call) : Prop := forall c, ~ In (SetComm c) h.
(** [c] was the last communicator set *)
Definition last_set (h : list call) (c : nat) : Prop := exists a b, h = a ++ SetComm c :: b /\ unset b.

(** ** Proofs *)
Section Proofs.
Variables (B : build) (ra si : nat -> nat).
Notation step := (step B ra si). Notation run := (run B ra si).

Fixpoint after (s : life) (h : list call) : life := match h with [] => s | c :: h => after (snd (step s c)) h end.

Lemma after_app s a b : after s (a ++ b) = after (after s a) b.
Proof. revert s. induction a as [|x a IH]; intros s; cbn [app after]; auto. Qed.

Lemma survives_cons s c h : survives B ra si s (c :: h) -> lives (fst (step s c)) = true /\ survives B ra si (snd (step s c)) h.
Proof.
  unfold survives. cbn [MpiLifeModel.run]. destruct (step s c) as [a s']. cbn [fst snd].
  destruct a; cbn [length forallb lives andb]; intros (A & D); try discriminate D; repeat split; auto; lia.
Qed.

Lemma run_next s h c : survives B ra si s h ->
  next B ra si s h c (fst (step (after s h) c)).
Proof.
  unfold next. revert s. induction h as [|x h IH]; intros s H.
  - cbn [app after MpiLifeModel.run]. destruct (step s c) as [a s']. cbn [fst]. destruct a; reflexivity.
  - apply survives_cons in H as (L & H). apply IH in H. cbn [app after MpiLifeModel.run].
    destruct (step s x) as [a s']. cbn [fst snd] in *. destruct a; try discriminate L; now rewrite H.
Qed.

Lemma survives_app s a b : survives B ra si s (a ++ b) -> survives B ra si s a /\ survives B ra si (after s a) b.
Proof.
  revert s. induction a as [|x a IH]; intros s H; [split; [now split | exact H]|].
  cbn [app] in H. apply survives_cons in H as (L & H). apply IH in H as (H1 & H2). cbn [after].
  split; [|exact H2]. unfold survives in *. cbn [MpiLifeModel.run]. destruct (step s x) as [r s']. cbn [fst snd] in *.
  destruct H1 as (E & G). destruct r; try discriminate L; cbn [length forallb lives andb]; split; auto.
Qed.
End Proofs.

Lemma next_fun B ra si s h c a b : next B ra si s h c a -> next B ra si s h c b -> a = b.
Proof. unfold next. intros H1 H2. rewrite H1 in H2. apply app_inj_tail in H2. tauto. Qed.

Section Checked.
Variables ra si : nat -> nat.
Notation D := (Build true true).

Lemma survives_snoc B s h c : survives B ra si s (h ++ [c]) ->
  survives B ra si s h /\ lives (fst (step B ra si (after B ra si s h) c)) = true.
Proof. intros H. apply survives_app in H as (H1 & H2). apply survives_cons in H2. tauto. Qed.

(** state of the library as a function of the history *)
Lemma lib_of h : survives D ra si fresh h ->
  (l_lib (after D ra si fresh h) = Idle /\ ~ begun h /\ ~ ended h) \/
  (l_lib (after D ra si fresh h) = Running /\ begun h /\ ~ ended h) \/
  (l_lib (after D ra si fresh h) = Over /\ begun h /\ ended h).
Proof.
  unfold begun, ended. induction h as [|c h IH] using rev_ind; intros H.
  - left. cbn. tauto.
  - apply survives_snoc in H as (H & L). specialize (IH H). rewrite after_app. cbn [after].
    rewrite !in_app_iff. cbn [In].
    destruct c; cbn [step init initialized finalize get_rank get_size barrier b_mpi b_assert assert_call fst snd] in *;
      destruct (l_lib (after D ra si fresh h)) eqn:E; cbn [MPI_Init MPI_Finalize fst snd lives] in *;
      try discriminate L;
      repeat match goal with |- context [if ?b then _ else _] => destruct b end;
      cbn [set_comm l_lib l_comm fst snd]; rewrite ?E;
      intuition (try discriminate; auto; try congruence).
Qed.

Lemma comm_last h c : last_set h c -> c <> 0 -> l_comm (after D ra si fresh h) = c.
Proof.
  intros (a & b & -> & U) N. rewrite after_app. cbn [after step snd]. set (s := set_comm c _).
  assert (E : l_comm s = c) by reflexivity. clearbody s. clear a. revert s E.
  induction b as [|x b IH]; intros s E; cbn [after]; auto. apply IH; [intros k K; apply (U k); now right|].
  destruct x; cbn [step init finalize b_mpi b_assert assert_call snd]; auto;
    try (destruct (l_lib s); cbn [MPI_Init MPI_Finalize snd l_comm]; auto;
         rewrite E; destruct (Nat.eqb_spec c 0); try contradiction; cbn; auto; fail).
  exfalso. apply (U c0). now left.
Qed.

Lemma comm_unset h : survives D ra si fresh h -> unset h -> begun h -> l_comm (after D ra si fresh h) = 1.
Proof.
  assert (G : forall s h, survives D ra si s h -> unset h -> l_comm s = 1 \/ l_comm s = 0 ->
    (l_comm s = 1 \/ begun h) -> l_comm (after D ra si s h) = 1).
  { intros s h'; revert s; induction h' as [|c h' IH]; intros s HS U V W; cbn [after].
    - destruct W as [W | [[] | []]]; auto.
    - apply survives_cons in HS as (L & HS).
      assert (U' : unset h') by (intros k K; apply (U k); now right).
      assert (Nc : forall k, c <> SetComm k) by (intros k ->; apply (U k); now left).
      unfold begun in *. cbn [In] in W.
      apply IH; auto; destruct c; cbn [step init finalize b_mpi b_assert assert_call snd fst lives] in *; auto;
        try (destruct (l_lib s); cbn [MPI_Init MPI_Finalize snd l_comm fst lives] in *; try discriminate L;
             destruct V as [V | V]; rewrite V; cbn; intuition (try discriminate; try congruence));
        try (exfalso; eapply Nc; reflexivity);
        intuition (try discriminate; try congruence). }
  intros HS U Bg. apply G; auto.
Qed.

Lemma comm_none h : unset h -> ~ begun h -> l_comm (after D ra si fresh h) = 0.
Proof.
  unfold begun. induction h as [|c h IH] using rev_ind; intros U N; [reflexivity|].
  assert (U' : unset h) by (intros k K; apply (U k); apply in_or_app; now left).
  rewrite in_app_iff in N. rewrite in_app_iff in N. cbn [In] in N.
  rewrite after_app. cbn [after]. specialize (IH U' ltac:(tauto)).
  destruct c; cbn [step init finalize b_mpi b_assert assert_call snd]; auto; try tauto.
  - destruct (l_lib _); cbn; auto.
  - exfalso. apply (U c). apply in_or_app. right. now left.
Qed.

(** Builds with assertions: Init succeeds exactly once, Finalize exactly once and after Init; after any other
    history the call ends the process *)
Theorem C113_once h : survives D ra si fresh h ->
  (forall c, c = Init \/ c = InitArgs -> (~ begun h -> next D ra si fresh h c Done) /\ (begun h -> next D ra si fresh h c Died)) /\
  (begun h -> ~ ended h -> next D ra si fresh h Finalize Done) /\
  (~ begun h \/ ended h -> next D ra si fresh h Finalize Died).
Proof.
  intros H. pose proof (lib_of h H) as L. repeat split.
  - intros N. enough (E : fst (step D ra si (after D ra si fresh h) c) = Done) by (rewrite <- E; now apply run_next).
    destruct H0 as [-> | ->]; cbn [step init b_mpi b_assert assert_call]; destruct L as [(-> & _) | [(_ & L & _) | (_ & L & _)]];
      try contradiction; cbn [MPI_Init fst]; reflexivity.
  - intros N. enough (E : fst (step D ra si (after D ra si fresh h) c) = Died) by (rewrite <- E; now apply run_next).
    destruct H0 as [-> | ->]; cbn [step init b_mpi b_assert assert_call]; destruct L as [(_ & L & _) | [(-> & _) | (-> & _)]];
      try contradiction; reflexivity.
  - intros N1 N2. enough (E : fst (step D ra si (after D ra si fresh h) Finalize) = Done) by (rewrite <- E; now apply run_next).
    cbn [step finalize b_mpi b_assert assert_call]. destruct L as [(_ & L & _) | [(-> & _) | (_ & _ & L)]]; try contradiction; reflexivity.
  - intros N. enough (E : fst (step D ra si (after D ra si fresh h) Finalize) = Died) by (rewrite <- E; now apply run_next).
    cbn [step finalize b_mpi b_assert assert_call]. destruct L as [(-> & _) | [(_ & L1 & L2) | (-> & _)]]; try tauto; reflexivity.
Qed.

(** Builds with assertions: between Init and Finalize, rank and size are those of MPI_COMM_WORLD, or of the
    communicator set last; Barrier works; outside this interval the calls end the process *)
Theorem C113_rank h : survives D ra si fresh h -> begun h -> ~ ended h -> forall c,
  (unset h /\ c = 1 \/ last_set h c /\ c <> 0) ->
  next D ra si fresh h GetRank (Number (ra c)) /\ next D ra si fresh h GetSize (Number (si c)) /\
  next D ra si fresh h GetComm (Number c) /\ next D ra si fresh h Barrier Done.
Proof.
  intros H Bg N c Hc.
  assert (C : l_comm (after D ra si fresh h) = c /\ c <> 0).
  { destruct Hc as [(U & ->) | (Ls & Z)]; [split; [now apply comm_unset | lia] | split; [now apply comm_last | auto]]. }
  assert (U : usable (after D ra si fresh h) = true).
  { unfold usable. destruct (lib_of h H) as [(_ & L & _) | [(-> & _) | (_ & _ & L)]]; try contradiction.
    destruct C as (-> & Z). now destruct (Nat.eqb_spec c 0). }
  repeat split; match goal with |- next _ _ _ _ _ ?k ?a =>
    enough (E : fst (step D ra si (after D ra si fresh h) k) = a) by (rewrite <- E; now apply run_next) end;
    cbn [step get_rank get_size barrier b_mpi fst]; rewrite ?U; destruct C as (C & _); rewrite ?C; reflexivity.
Qed.
Theorem C113_outside h : survives D ra si fresh h -> ~ begun h \/ ended h -> forall k, In k [GetRank; GetSize; Barrier] ->
  next D ra si fresh h k Died.
Proof.
  intros H N k Hk.
  assert (U : usable (after D ra si fresh h) = false).
  { unfold usable. destruct (lib_of h H) as [(-> & _) | [(_ & L1 & L2) | (-> & _)]]; auto. tauto. }
  enough (E : fst (step D ra si (after D ra si fresh h) k) = Died) by (rewrite <- E; now apply run_next).
  destruct Hk as [<- | [<- | [<- | []]]]; cbn [step get_rank get_size barrier b_mpi fst]; now rewrite U.
Qed.

(** Initialized() documents true for "initialized"; with assertions it always answers, and always the opposite *)
Theorem C113_initialized_refuted h : survives D ra si fresh h ->
  (begun h -> next D ra si fresh h Initialized (Truth false)) /\ (~ begun h -> next D ra si fresh h Initialized (Truth true)).
Proof.
  intros H. split; intros N; match goal with |- next _ _ _ _ _ ?k ?a =>
    enough (E : fst (step D ra si (after D ra si fresh h) k) = a) by (rewrite <- E; now apply run_next) end;
    cbn [step initialized b_mpi b_assert fst]; destruct (lib_of h H) as [(-> & L & _) | [(-> & L & _) | (-> & L & _)]];
    try contradiction; reflexivity.
Qed.

(** Builds without MPI: every history runs to its end; the process is rank 0 of 1 *)
Theorem C113_serial checked h : survives (Build false checked) ra si fresh h /\
  forall c, next (Build false checked) ra si fresh h c
    (match c with Initialized => Truth true | GetRank => Number 0 | GetSize => Number 1
     | GetComm => Number (l_comm (after (Build false checked) ra si fresh h)) | _ => Done end).
Proof.
  assert (G : forall s h, survives (Build false checked) ra si s h).
  { intros s h'; revert s; induction h' as [|c h' IH]; intros s; [now split|].
    destruct (IH (snd (step (Build false checked) ra si s c))) as (A & E). unfold survives. cbn [run].
    destruct c; cbn [step init initialized finalize get_rank get_size barrier b_mpi fst snd length forallb lives andb] in *;
      (split; [now rewrite A | exact E]). }
  split; [apply G|]. intros c.
  match goal with |- next ?B _ _ _ _ ?k ?a =>
    enough (E : fst (step B ra si (after B ra si fresh h) k) = a) by (rewrite <- E; apply run_next, G) end.
  destruct c; reflexivity.
Qed.

(** Builds without assertions (NDEBUG): MPI_Init is inside assert(..), so it is never called.  Whatever a process has
    called before, Init and Finalize return, rank, size and Barrier end the process (MPI was not initialised) and
    Initialized() reads a variable that was never written *)
Theorem C113_ndebug_refuted h : survives (Build true false) ra si fresh h ->
  next (Build true false) ra si fresh h Init Done /\ next (Build true false) ra si fresh h InitArgs Done /\
  next (Build true false) ra si fresh h Finalize Done /\
  next (Build true false) ra si fresh h GetRank Died /\ next (Build true false) ra si fresh h GetSize Died /\
  next (Build true false) ra si fresh h Barrier Died /\ next (Build true false) ra si fresh h Initialized Undefined.
Proof.
  intros H.
  assert (E : forall h, l_lib (after (Build true false) ra si fresh h) = Idle).
  { intros h'. induction h' as [|c h' IH] using rev_ind; [reflexivity|]. rewrite after_app. cbn [after].
    destruct c; cbn [step init finalize b_mpi b_assert assert_call snd]; auto;
      match goal with |- context [if ?b then _ else _] => destruct b end; cbn; auto. }
  specialize (E h).
  repeat split; match goal with |- next ?B _ _ _ _ ?k ?a =>
    enough (X : fst (step B ra si (after B ra si fresh h) k) = a) by (rewrite <- X; now apply run_next) end;
    cbn [step init initialized finalize get_rank get_size barrier b_mpi b_assert assert_call fst]; unfold usable; rewrite ?E; reflexivity.
Qed.

(** A program that calls MPI_Init itself: with assertions Init ends the process; without them it works *)
Theorem C113_external :
  run D ra si already [Init] = [Died] /\
  run (Build true false) ra si already [Init; GetRank; GetSize; Barrier] = [Done; Number (ra 1); Number (si 1); Done].
Proof. split; reflexivity. Qed.
End Checked.

(** concrete histories *)
Example C113_example :
  let h := [Initialized; Init; GetRank; SetComm 7; GetSize; Barrier] in
  survives (Build true true) (fun c => c + 10) (fun c => c + 20) fresh h /\ begun h /\ ~ ended h /\ last_set h 7 /\
  run (Build true true) (fun c => c + 10) (fun c => c + 20) fresh (h ++ [Finalize; GetRank; Barrier])
    = [Truth true; Done; Number 11; Done; Number 27; Done; Done; Died] /\
  run (Build true false) (fun c => c + 10) (fun c => c + 20) fresh [Init; GetRank] = [Done; Died].
Proof.
  cbn. split; [now split|]. split; [left; cbn; auto|]. split; [intros X; cbn in X; intuition discriminate|].
  split; [|split; reflexivity].
  exists [Initialized; Init; GetRank], [GetSize; Barrier]. split; [reflexivity|]. intros c X. cbn in X. intuition discriminate.
Qed.

Print Assumptions C113_once.
Print Assumptions C113_rank.
Print Assumptions C113_outside.
Print Assumptions C113_initialized_refuted.
Print Assumptions C113_serial.
Print Assumptions C113_ndebug_refuted.
Print Assumptions C113_external.
