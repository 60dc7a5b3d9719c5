(** * PropertiesMpiFail: C69, collective calls that do not fit together.

    If every rank has reached a Barrier or a Bcast of a vector, and two ranks disagree about the operation, the
    root, the type or the number of elements, or a root is not a rank, then the program ends in an error on every
    schedule: no rank continues with wrong data. *)
From Coq Require Import List Arith Bool Lia ZArith.
From Verif Require Import Base MpiMap MpiModel MpiProof MpiProof5 MpiSpec MpiProof6 MpiProof7 MpiProof8 MpiProof10 MpiProof11 MpiProof12 MpiProof13 PropertiesMpi.
Import ListNotations.
Set Implicit Arguments.

(** what a rank calls: [None] is Barrier, [Some (a, root)] is Bcast of the vector in variable [a] *)
Definition coll_call {V} (x : option (nat * nat)) (k : prog V) : prog V :=
  match x with None => comm_Barrier k | Some (a, root) => comm_Bcast_vec a root k end.
(** the two calls fit together in a program of [P] ranks; [o], [o']: the vectors that are passed *)
Definition calls_fit {V} (P : nat) (x x' : option (nat * nat)) (o o' : obj V) : Prop :=
  match x, x' with
  | None, None => True
  | Some (_, r), Some (_, r') => r = r' /\ r < P /\ o_ty o = o_ty o' /\ length (o_dat o) = length (o_dat o')
  | _, _ => False
  end.

Section Mismatch.
Context {V : Type} (I : impl V).

Lemma coll_disagree (l : list (rst V)) i j :
  i < length l -> j < length l -> (forall n, n < length l -> in_coll (rk l n) = true) ->
  (forall x0, compat (length l) x0 (coll_args (rk l i)) = true -> compat (length l) x0 (coll_args (rk l j)) = true -> False) ->
  coll_step I l = Some None.
Proof.
  intros Hi Hj IC D. unfold coll_step. destruct (Nat.ltb_spec 0 (length l)); [|lia].
  assert (A : forallb (@in_coll V) l = true).
  { apply forallb_forall. intros r Hr. apply In_nth_error in Hr as [n En].
    assert (n < length l) by (apply nth_error_Some; congruence). specialize (IC n). unfold rk in IC.
    rewrite (nth_error_nth _ _ _ En) in IC. auto. }
  rewrite A. cbn [andb]. set (x0 := coll_args _). destruct (forallb (coll_ok I l x0) (seq 0 (length l))) eqn:B; auto.
  exfalso. rewrite forallb_forall in B. apply (D x0).
  - specialize (B i). rewrite in_seq in B. specialize (B ltac:(lia)). unfold coll_ok in B. rewrite !andb_true_iff in B. tauto.
  - specialize (B j). rewrite in_seq in B. specialize (B ltac:(lia)). unfold coll_ok in B. rewrite !andb_true_iff in B. tauto.
Qed.

Lemma mty_eqb_eq a b : mty_eqb a b = true -> a = b.
Proof. destruct a, b; cbn; congruence. Qed.

Theorem C69_mismatch_fails (s : gst V) c (x : nat -> option (nat * nat)) (o : nat -> obj V) (k : nat -> prog V) i j :
  reachable I s -> i < length (g_ranks s) -> j < length (g_ranks s) ->
  (forall n r, nth_error (g_ranks s) n = Some r ->
     r_prog r = coll_call (x n) (k n) /\ ready r c /\
     match x n with None => True
     | Some (a, _) => holds r a (o n) /\ supported (o_ty (o n)) /\ 0 < length (o_dat (o n)) end) ->
  ~ calls_fit (length (g_ranks s)) (x i) (x j) (o i) (o j) ->
  fails I s.
Proof.
  intros R Hi Hj H NF. set (P := length (g_ranks s)) in *.
  set (xc := fun n => match x n with None => CBarrier | Some (a, root) => CBcast a (length (o_dat (o n))) (mt (o n)) root end).
  set (g := fun n (r : rst V) => with_prog r (Coll c (xc n) (k n))).
  destruct (@exec_solo_all V I g s) as (tr & l & E & PW).
  { intros n r Er. destruct (H n r Er) as (Pg & (Hin & Hc & C0) & HX). unfold g, xc. unfold coll_call in Pg.
    destruct (x n) as [(a, root)|].
    - destruct HX as ((O & W) & S & L). eapply solo_trans; [exact (@solo_get_comm _ r _ Pg)|]. rewrite Hc.
      eapply solo_trans; [eapply solo_read; [reflexivity|exact O|apply writable_readable; exact W]|].
      cbv beta. destruct (Nat.eqb_spec (length (o_dat (o n))) 0); [lia|]. unfold with_type. rewrite (mt_ok _ S). constructor.
    - eapply solo_trans; [exact (@solo_get_comm _ r _ Pg)|]. rewrite Hc. constructor. }
  assert (LEN : length l = P) by exact (pointwise_length PW).
  assert (RK : forall n, n < P -> exists r, nth_error (g_ranks s) n = Some r /\ rk l n = g n r).
  { intros n Hn. destruct (nth_error (g_ranks s) n) as [r|] eqn:Er; [|apply nth_error_None in Er; unfold P in Hn; lia].
    exists r. split; auto. unfold rk. apply nth_error_nth. exact (pw_nth n PW Er). }
  eapply fails_intro; [exact R|]. eapply exec_app; [exact E|]. apply exec_coll_err. cbn [g_ranks].
  apply (@coll_disagree l i j); rewrite ?LEN; auto.
  - intros n Hn. destruct (RK n Hn) as (r & _ & ->). reflexivity.
  - destruct (RK i Hi) as (ri & Ei & ->), (RK j Hj) as (rj & Ej & ->).
    change (coll_args (g i ri)) with (xc i). change (coll_args (g j rj)) with (xc j).
    destruct (H i ri Ei) as (_ & _ & Xi), (H j rj Ej) as (_ & _ & Xj).
    intros x0 C1 C2. apply NF. unfold xc in C1, C2. unfold calls_fit.
    destruct (x i) as [(a, r1)|], (x j) as [(b, r2)|]; destruct x0; cbn [compat] in C1, C2; try discriminate; auto.
    rewrite !andb_true_iff in C1, C2. destruct C1 as (((A1 & A2) & A3) & A4), C2 as (((B1 & B2) & B3) & B4).
    apply Nat.eqb_eq in A1, A3, B1, B3. apply Nat.ltb_lt in A4. apply mty_eqb_eq in A2, B2.
    split; [lia|]. split; [lia|]. split; [|lia].
    destruct Xi as (_ & S1 & _), Xj as (_ & S2 & _). pose proof (mt_ok _ S1) as M1. pose proof (mt_ok _ S2) as M2.
    rewrite <- A2 in M1. rewrite <- B2 in M2. destruct (o_ty (o i)), (o_ty (o j)); cbn in M1, M2; congruence.
Qed.
End Mismatch.
Print Assumptions C69_mismatch_fails.

(** a program: three ranks, rank 2 names another root *)
Theorem C69_mismatch_program (I : impl Z) :
  fails I (start 3 (fun i => [Obj CDouble [Z.of_nat i]])
                   (fun i => comm_Init (comm_Bcast_vec 0 (if Nat.eqb i 2 then 1 else 0) (Ret Z)))).
Proof.
  destruct (after_init I 3 (fun i => [Obj CDouble [Z.of_nat i]])
     (fun i => comm_Bcast_vec 0 (if Nat.eqb i 2 then 1 else 0) (Ret Z))) as (s & Ld & R & LN & Q & H).
  apply (leads_fails (start_reachable _ _ _ _) Ld).
  refine (@C69_mismatch_fails Z I s 1 (fun i => Some (0, if Nat.eqb i 2 then 1 else 0)) (fun i => Obj CDouble [Z.of_nat i])
     (fun _ => Ret Z) 0 2 R _ _ _ _); try lia.
  - intros i r E. destruct (H i r E) as (_ & Pg & Rd & _ & _ & _ & O & W).
    split; [exact Pg|]. split; [exact Rd|]. split; [split; [apply O|apply W]|split; [left; reflexivity|cbn; lia]].
  - cbn. intros (X & _). discriminate.
Qed.
Print Assumptions C69_mismatch_program.
