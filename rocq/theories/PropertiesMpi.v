(** * PropertiesMpi: C66-C72, programs that use monolish::mpi::comm.

    [reachable I s]: some execution of some program on any number of ranks is in state [s]; [outcome I s o]:
    the program can end from [s] in [o] (None: an error; Some n: nothing can happen any more); [leads],
    [fails], [ends], [ready], [holds], [continues], [assigned], [quiet]: MpiSpec.  [I] is the MPI library:
    which messages it buffers, the order in which it adds, whether it accepts equal buffers. *)
From Coq Require Import List Arith Bool Lia ZArith.
From Verif Require Import Base Scalar Spec SumFacts Mem MemSpec VecModel VecSpec ReduceModel ReduceSpec ReduceProof.
From Verif Require Import MpiMap MpiModel MpiProof5 MpiSpec MpiProof6 MpiProof7 MpiProof8 MpiProof9 MpiProof10 MpiProof11 MpiProof12 MpiProof13 MpiReduce.
Import ListNotations.
Set Implicit Arguments.

(** ** C66: the outcome does not depend on the schedule *)

(** every program has exactly one outcome *)
Theorem C66_one_outcome {V} (I : impl V) P m p :
  exists o, outcome I (start P m p) o /\ forall o', outcome I (start P m p) o' -> o' = o.
Proof.
  destruct (outcome_exists I (start P m p)) as [o O]. exists o. split; [exact O|].
  intros o' O'. eapply outcome_unique; [apply reachable_inv; apply (start_reachable I P m p)|exact O'|exact O].
Qed.

(** whatever has been scheduled so far, that outcome is still ahead *)
Theorem C66_still_ahead {V} (I : impl V) P m p tr s o :
  exec I (Some (start P m p)) tr (Some s) -> outcome I (start P m p) o -> outcome I s o.
Proof.
  intros E O. apply (fun H => proj1 (@outcome_stable V I _ tr s o H E) O). apply reachable_inv, start_reachable.
Qed.

(** no schedule runs for ever, and if the outcome is normal every complete execution has the same number of
    steps *)
Theorem C66_no_infinite_run {V} (I : impl V) (f : nat -> gst V) :
  (forall n, exists l e, gstep I (f n) l = Some (e, Some (f (S n)))) -> False.
Proof. exact (@no_infinite_run V I f). Qed.

Theorem C66_bounded {V} (I : impl V) P m p n : outcome I (start P m p) (Some n) ->
  exists B, forall j t, execn I j (Some (start P m p)) t -> j <= B /\ exists s', t = Some s' /\ outcome I s' (Some n).
Proof. intro O. apply normal_bound; auto. apply reachable_inv, start_reachable. Qed.

(** not trivial: a program that reads a variable the library may still be writing to is an error, even if the
    message could have arrived before *)
Definition zimpl (al : bool) : impl Z := Impl (fun n => Nat.ltb n 1000) (fun _ l => fold_right Z.add 0%Z l) al.
Example C66_example_error :
  outcome (zimpl true) (start 2 (fun _ => [Obj CDouble [1%Z]])
    (fun i => comm_Init (comm_Irecv_vec 0 (1 - i) 7 (Read 0 (fun _ => Ret Z))))) None.
Proof.
  split; [|exact Logic.I]. eexists.
  do 5 (eapply exec_cons with (l := LRank 0); [vm_compute; reflexivity|]).
  do 3 (eapply exec_cons with (l := LRank 0); [vm_compute; reflexivity|]).
  eapply exec_cons with (l := LRank 0); [vm_compute; reflexivity|].
  eapply exec_cons with (l := LRank 0); [vm_compute; reflexivity|]. constructor.
Qed.

(** ** C67: blocking point-to-point messages *)

(** whatever the program and the schedule: the messages received on a channel (communicator, source,
    destination, tag) are the first messages sent on it, unaltered, each once, in the order of sending *)
Theorem C67_in_order {V} (I : impl V) P m p tr s c : exec I (Some (start P m p)) tr (Some s) ->
  exists rest, sent_on c tr = received_on c tr ++ rest.
Proof. apply messages_in_order. Qed.

(** Send on one rank, Recv on another (monolish::vector): the receiver's first elements become the sender's,
    nothing else changes *)
Theorem C67_send_recv {V} (I : impl V) (s : gst V) i j ri rj c tag a b oa ob ki kj :
  reachable I s ->
  nth_error (g_ranks s) i = Some ri -> nth_error (g_ranks s) j = Some rj -> i <> j ->
  ready ri c -> ready rj c -> quiet s (c, i, j, tag) ->
  r_prog ri = comm_Send_vec a j tag ki -> r_prog rj = comm_Recv_vec b i tag kj ->
  objat (r_mem ri) a = Some oa -> readable ri a = true -> holds rj b ob ->
  supported (o_ty oa) -> o_ty oa = o_ty ob -> 0 < length (o_dat oa) <= length (o_dat ob) ->
  exists s', leads I s s' /\ length (g_ranks s') = length (g_ranks s) /\
    (exists ri', nth_error (g_ranks s') i = Some ri' /\ continues ri ki ri') /\
    (exists rj', nth_error (g_ranks s') j = Some rj' /\
       assigned rj b (o_dat oa ++ skipn (length (o_dat oa)) (o_dat ob)) kj rj') /\
    (forall x, x <> i -> x <> j -> nth_error (g_ranks s') x = nth_error (g_ranks s) x) /\
    quiet s' (c, i, j, tag) /\ (forall c', c' <> (c, i, j, tag) -> chan_of s' c' = chan_of s c').
Proof. apply send_recv_rule. Qed.

(** any number of vectors, sent and received one after the other: the n-th received is the n-th sent *)
Theorem C67_send_recv_all {V} (I : impl V) (l : list (nat * nat)) (s : gst V) i j ri rj c tag ki kj :
  reachable I s ->
  nth_error (g_ranks s) i = Some ri -> nth_error (g_ranks s) j = Some rj -> i <> j ->
  ready ri c -> ready rj c -> quiet s (c, i, j, tag) ->
  r_prog ri = send_all (map fst l) j tag ki -> r_prog rj = recv_all (map snd l) i tag kj ->
  NoDup (map snd l) ->
  (forall a b, In (a, b) l -> exists oa ob, holds ri a oa /\ holds rj b ob /\ supported (o_ty oa) /\
     o_ty oa = o_ty ob /\ 0 < length (o_dat oa) /\ length (o_dat oa) = length (o_dat ob)) ->
  exists s' ri' rj', leads I s s' /\ length (g_ranks s') = length (g_ranks s) /\
    nth_error (g_ranks s') i = Some ri' /\ continues ri ki ri' /\
    nth_error (g_ranks s') j = Some rj' /\ r_prog rj' = kj /\ r_priv rj' = r_priv rj /\
    (forall b, writable rj' b = writable rj b) /\
    (forall a b, In (a, b) l -> objat (r_mem rj') b = objat (r_mem ri) a) /\
    (forall b, ~ In b (map snd l) -> objat (r_mem rj') b = objat (r_mem rj) b) /\
    (forall x, x <> i -> x <> j -> nth_error (g_ranks s') x = nth_error (g_ranks s) x) /\
    quiet s' (c, i, j, tag) /\ (forall c', c' <> (c, i, j, tag) -> chan_of s' c' = chan_of s c').
Proof. apply send_recv_all_rule. Qed.

(** a message that is longer than the receiving vector, or of another type, is an error on every schedule *)
Theorem C67_mismatch_fails {V} (I : impl V) (s : gst V) i j ri rj c tag a b oa ob ki kj :
  reachable I s ->
  nth_error (g_ranks s) i = Some ri -> nth_error (g_ranks s) j = Some rj -> i <> j ->
  ready ri c -> ready rj c -> quiet s (c, i, j, tag) ->
  r_prog ri = comm_Send_vec a j tag ki -> r_prog rj = comm_Recv_vec b i tag kj ->
  objat (r_mem ri) a = Some oa -> readable ri a = true -> holds rj b ob ->
  supported (o_ty oa) -> supported (o_ty ob) ->
  o_ty oa <> o_ty ob \/ length (o_dat ob) < length (o_dat oa) ->
  0 < length (o_dat oa) -> 0 < length (o_dat ob) ->
  fails I s.
Proof. apply send_recv_mismatch. Qed.

(** a whole program, for any number of ranks and any data: rank 0 sends variable 0 to rank 1, which receives
    it in its variable 0 *)
Definition two_ranks {V} (p q : prog V) (i : nat) : prog V :=
  comm_Init (match i with 0 => p | 1 => q | _ => Ret V end).
Theorem C67_program {V} (I : impl V) P tag (m : nat -> list (obj V)) t d0 d1 :
  2 <= P -> supported t -> nth_error (m 0) 0 = Some (Obj t d0) -> nth_error (m 1) 0 = Some (Obj t d1) ->
  0 < length d0 -> length d0 = length d1 ->
  exists n r, ends I (start P m (two_ranks (comm_Send_vec 0 1 tag (Ret V)) (comm_Recv_vec 0 0 tag (Ret V)))) n /\
    finished n /\ nth_error (g_ranks n) 1 = Some r /\ objat (r_mem r) 0 = Some (Obj t d0).
Proof.
  intros HP St M0 M1 L0 LL.
  destruct (after_init I P m (fun i => match i with 0 => comm_Send_vec 0 1 tag (Ret V) | 1 => comm_Recv_vec 0 0 tag (Ret V) | _ => Ret V end))
    as (s & Ld & R & LN & Q & H).
  destruct (nth_error (g_ranks s) 0) as [ri|] eqn:Ei; [|apply nth_error_None in Ei; lia].
  destruct (nth_error (g_ranks s) 1) as [rj|] eqn:Ej; [|apply nth_error_None in Ej; lia].
  destruct (H _ _ Ei) as (_ & Pi & Ri & _ & _ & _ & Oi & Wi). destruct (H _ _ Ej) as (_ & Pj & Rj & _ & _ & _ & Oj & Wj).
  destruct (@C67_send_recv V I s 0 1 ri rj 1 tag 0 0 (Obj t d0) (Obj t d1) (Ret V) (Ret V) R Ei Ej ltac:(lia) Ri Rj (Q _) Pi Pj)
    as (s' & Ld' & LN' & (ri' & Ei' & Ci) & (rj' & Ej' & Cj) & No & Q' & Ch).
  - rewrite Oi. exact M0.
  - apply writable_readable. apply Wi.
  - split; [rewrite Oj; exact M1|apply Wj].
  - exact St.
  - reflexivity.
  - cbn. lia.
  - exists s', rj'.
    assert (ALL : forall i r, nth_error (g_ranks s') i = Some r -> r_prog r = Ret V).
    { intros i r E. destruct (Nat.eq_dec i 0) as [->|N0]; [rewrite Ei' in E; injection E as <-; apply Ci|].
      destruct (Nat.eq_dec i 1) as [->|N1]; [rewrite Ej' in E; injection E as <-; apply Cj|].
      rewrite No in E by auto. destruct (H _ _ E) as (_ & X & _). rewrite X. destruct i as [|[|i]]; congruence. }
    split; [|split; [|split; [exact Ej'|]]].
    + apply leads_ends; [apply start_reachable|exact (leads_trans Ld Ld')|exact ALL|].
      intro c. destruct (chan_dec c (1, 0, 1, tag)) as [->|N]; [exact Q'|]. unfold quiet. rewrite (Ch c N). apply Q.
    + apply Forall_forall. intros r Hr. apply In_nth_error in Hr as [i E]. eauto.
    + destruct Cj as (_ & _ & X & _). rewrite X. cbn [Nat.eqb]. rewrite Oj, M1. cbn [option_map o_ty o_dat].
      rewrite LL, skipn_all, app_nil_r. reflexivity.
Qed.
Example C67_example : forall I : impl Z, exists n r,
  ends I (start 3 (fun i => [Obj CDouble [Z.of_nat i; 7%Z]]) (two_ranks (comm_Send_vec 0 1 5 (Ret Z)) (comm_Recv_vec 0 0 5 (Ret Z)))) n /\
  finished n /\ nth_error (g_ranks n) 1 = Some r /\ objat (r_mem r) 0 = Some (Obj CDouble [0%Z; 7%Z]).
Proof.
  intro I. apply (@C67_program Z I 3 5 (fun i => [Obj CDouble [Z.of_nat i; 7%Z]]) CDouble [0; 7]%Z [1; 7]%Z); cbn; auto; try lia.
  left. reflexivity.
Qed.

(** Recv of a scalar does not assign the variable: the program goes on as after a successful transfer, but
    every variable of the receiver is what it was before *)
Theorem C67_scalar_recv_refuted {V} (I : impl V) (s : gst V) i j ri rj c tag t v b ob ki kj :
  reachable I s ->
  nth_error (g_ranks s) i = Some ri -> nth_error (g_ranks s) j = Some rj -> i <> j ->
  ready ri c -> ready rj c -> quiet s (c, i, j, tag) ->
  r_prog ri = comm_Send_scalar t v j tag ki -> r_prog rj = comm_Recv_scalar b i tag kj ->
  holds rj b ob -> supported t -> o_ty ob = t -> 0 < length (o_dat ob) ->
  exists s', leads I s s' /\ length (g_ranks s') = length (g_ranks s) /\
    (exists ri', nth_error (g_ranks s') i = Some ri' /\ continues ri ki ri') /\
    (exists rj', nth_error (g_ranks s') j = Some rj' /\ continues rj kj rj') /\
    (forall x, x <> i -> x <> j -> nth_error (g_ranks s') x = nth_error (g_ranks s) x) /\
    quiet s' (c, i, j, tag) /\ (forall c', c' <> (c, i, j, tag) -> chan_of s' c' = chan_of s c').
Proof. apply send_recv_scalar_rule. Qed.

(** Recv into a std::vector ends the process *)
Theorem C67_std_recv_refuted {V} (I : impl V) (s : gst V) j r b src tag o k :
  reachable I s -> nth_error (g_ranks s) j = Some r -> r_prog r = comm_Recv_std b src tag k -> holds r b o -> fails I s.
Proof. apply recv_std_fails. Qed.

(** concretely: rank 1's variable holds 1 although rank 0 sent 5, and the std::vector program fails *)
Theorem C67_scalar_program_refuted (I : impl Z) : exists n r,
  ends I (start 2 (fun _ => [Obj CDouble [1%Z]]) (two_ranks (comm_Send_scalar CDouble 5%Z 1 9 (Ret Z)) (comm_Recv_scalar 0 0 9 (Ret Z)))) n /\
  finished n /\ nth_error (g_ranks n) 1 = Some r /\ objat (r_mem r) 0 = Some (Obj CDouble [1%Z]).
Proof.
  destruct (after_init I 2 (fun _ => [Obj CDouble [1%Z]]) (fun i => match i with 0 => comm_Send_scalar CDouble 5%Z 1 9 (Ret Z) | 1 => comm_Recv_scalar 0 0 9 (Ret Z) | _ => Ret Z end))
    as (s & Ld & R & LN & Q & H).
  destruct (nth_error (g_ranks s) 0) as [ri|] eqn:Ei; [|apply nth_error_None in Ei; lia].
  destruct (nth_error (g_ranks s) 1) as [rj|] eqn:Ej; [|apply nth_error_None in Ej; lia].
  destruct (H _ _ Ei) as (_ & Pi & Ri & _ & _ & _ & Oi & Wi). destruct (H _ _ Ej) as (_ & Pj & Rj & _ & _ & _ & Oj & Wj).
  destruct (@C67_scalar_recv_refuted Z I s 0 1 ri rj 1 9 CDouble 5%Z 0 (Obj CDouble [1%Z]) (Ret Z) (Ret Z) R Ei Ej ltac:(lia) Ri Rj (Q _) Pi Pj)
    as (s' & Ld' & LN' & (ri' & Ei' & Ci) & (rj' & Ej' & Cj) & No & Q' & Ch).
  - split; [rewrite Oj; reflexivity|apply Wj].
  - left. reflexivity.
  - reflexivity.
  - cbn. lia.
  - exists s', rj'.
    assert (ALL : forall i r, nth_error (g_ranks s') i = Some r -> r_prog r = Ret Z).
    { intros i r E. destruct (Nat.eq_dec i 0) as [->|N0]; [rewrite Ei' in E; injection E as <-; apply Ci|].
      destruct (Nat.eq_dec i 1) as [->|N1]; [rewrite Ej' in E; injection E as <-; apply Cj|].
      rewrite No in E by auto. destruct (H _ _ E) as (_ & X & _). rewrite X. destruct i as [|[|i]]; congruence. }
    split; [|split; [|split; [exact Ej'|]]].
    + apply leads_ends; [apply start_reachable|exact (leads_trans Ld Ld')|exact ALL|].
      intro c. destruct (chan_dec c (1, 0, 1, 9)) as [->|N]; [exact Q'|]. unfold quiet. rewrite (Ch c N). apply Q.
    + apply Forall_forall. intros r Hr. apply In_nth_error in Hr as [i E]. eauto.
    + destruct Cj as (_ & _ & X & _). rewrite X, Oj. reflexivity.
Qed.

(** ** C68: non-blocking messages *)

(** every rank [i] starts to receive from [src i], starts to send to [dst i] (std::vector) and waits: nobody is
    blocked, every rank has the elements of its source; for any permutation of the ranks, also a rank that
    sends to itself *)
Theorem C68_exchange {V} (I : impl V) (s : gst V) c tag (src dst a b : nat -> nat) (oa ob : nat -> obj V) (k : nat -> prog V) :
  let P := length (g_ranks s) in
  (forall i, i < P -> src i < P) -> (forall i, i < P -> dst i < P) ->
  (forall i, i < P -> src (dst i) = i) -> (forall i, i < P -> dst (src i) = i) ->
  (forall i, i < P -> supported (o_ty (oa i)) /\ o_ty (oa i) = o_ty (ob (dst i))) ->
  (forall i, i < P -> 0 < length (o_dat (oa i)) <= length (o_dat (ob (dst i)))) ->
  (forall i, i < P -> quiet s (c, i, dst i, tag)) ->
  (forall i r, nth_error (g_ranks s) i = Some r ->
    r_prog r = comm_Irecv_vec (b i) (src i) tag (comm_Isend_std (a i) (dst i) tag (comm_Waitall (k i))) /\
    ready r c /\ p_reqs (r_priv r) = [] /\ holds r (a i) (oa i) /\ holds r (b i) (ob i) /\ a i <> b i) ->
  reachable I s ->
  exists s', leads I s s' /\ length (g_ranks s') = P /\
    (forall i r, nth_error (g_ranks s) i = Some r -> exists r', nth_error (g_ranks s') i = Some r' /\
       assigned r (b i) (o_dat (oa (src i)) ++ skipn (length (o_dat (oa (src i)))) (o_dat (ob i))) (k i) r') /\
    (forall i, i < P -> quiet s' (c, i, dst i, tag)) /\
    (forall c', (forall i, i < P -> c' <> (c, i, dst i, tag)) -> chan_of s' c' = chan_of s c').
Proof. cbn zeta. apply exchange_rule. Qed.

(** a whole program: every rank passes its variable 0 on to the next rank of a ring, into variable 1; any
    number of ranks, any data of equal positive length *)
Definition next_of (P i : nat) : nat := if Nat.eqb (S i) P then 0 else S i.
Definition prev_of (P i : nat) : nat := if Nat.eqb i 0 then P - 1 else i - 1.
Lemma ring_ok P i : i < P -> next_of P i < P /\ prev_of P i < P /\ prev_of P (next_of P i) = i /\ next_of P (prev_of P i) = i.
Proof.
  intro H. unfold next_of, prev_of.
  repeat match goal with
  | |- context [if Nat.eqb ?x ?y then _ else _] =>
      lazymatch x with context [if _ then _ else _] => fail | _ => destruct (Nat.eqb_spec x y) end
  end; lia.
Qed.
Theorem C68_ring {V} (I : impl V) P tag t L (d e : nat -> list V) :
  supported t -> 0 < L -> (forall i, i < P -> length (d i) = L /\ length (e i) = L) ->
  exists n, ends I (start P (fun i => [Obj t (d i); Obj t (e i)])
      (fun i => comm_Init (comm_Irecv_vec 1 (prev_of P i) tag (comm_Isend_std 0 (next_of P i) tag (comm_Waitall (Ret V)))))) n /\
    finished n /\
    forall i, i < P -> exists r, nth_error (g_ranks n) i = Some r /\
      objat (r_mem r) 0 = Some (Obj t (d i)) /\ objat (r_mem r) 1 = Some (Obj t (d (prev_of P i))).
Proof.
  intros St L0 HL.
  destruct (after_init I P (fun i => [Obj t (d i); Obj t (e i)])
     (fun i => comm_Irecv_vec 1 (prev_of P i) tag (comm_Isend_std 0 (next_of P i) tag (comm_Waitall (Ret V)))))
    as (s & Ld & R & LN & Q & H).
  destruct (@C68_exchange V I s 1 tag (prev_of P) (next_of P) (fun _ => 0) (fun _ => 1) (fun i => Obj t (d i)) (fun i => Obj t (e i)) (fun _ => Ret V))
    as (s' & Ld' & LN' & A & Q' & Ch); rewrite ?LN; try (intros i Hi; apply (ring_ok Hi)).
  - intros i Hi. split; [exact St|reflexivity].
  - intros i Hi. cbn [o_dat]. destruct (HL i Hi) as [-> _]. destruct (HL (next_of P i)) as [_ ->]; [apply (ring_ok Hi)|lia].
  - intros i _. apply Q.
  - intros i r E. destruct (H i r E) as (_ & Pg & Rd & Rq & _ & _ & O & W).
    split; [exact Pg|]. split; [exact Rd|]. split; [exact Rq|].
    split; [split; [apply O|apply W]|]. split; [split; [apply O|apply W]|discriminate].
  - exact R.
  - rewrite LN in *. exists s'.
    assert (G : forall i, i < P -> exists r, nth_error (g_ranks s) i = Some r).
    { intros i Hi. destruct (nth_error (g_ranks s) i) eqn:E; [eauto|]. apply nth_error_None in E. lia. }
    assert (ALL : forall i r, nth_error (g_ranks s') i = Some r -> r_prog r = Ret V).
    { intros i r E. assert (Hi : i < P) by (rewrite <- LN'; apply nth_error_Some; congruence).
      destruct (G i Hi) as [r0 E0]. destruct (A i r0 E0) as (r' & E' & AS). rewrite E' in E. injection E as <-. apply AS. }
    split; [|split].
    + apply leads_ends; [apply start_reachable|exact (leads_trans Ld Ld')|exact ALL|].
      intros [[[c1 c2] c3] c4].
      destruct (chan_dec (c1, c2, c3, c4) (1, c2, next_of P c2, tag)) as [X|X].
      * rewrite X. destruct (lt_dec c2 P) as [Hc|Hc]; [exact (Q' c2 Hc)|].
        unfold quiet. rewrite Ch; [apply Q|]. intros i Hi Y. injection Y as Y1 Y2. lia.
      * unfold quiet. rewrite Ch; [apply Q|]. intros i Hi Y. apply X. injection Y as -> -> -> ->. reflexivity.
    + apply Forall_forall. intros r Hr. apply In_nth_error in Hr as [i E]. eauto.
    + intros i Hi. destruct (G i Hi) as [r0 E0]. destruct (A i r0 E0) as (r' & E' & (_ & _ & X & _)).
      destruct (H i r0 E0) as (_ & _ & _ & _ & _ & _ & O & _).
      exists r'. split; [exact E'|]. rewrite !X, !O. cbn [nth_error Nat.eqb option_map o_ty o_dat]. split; [reflexivity|].
      destruct (HL _ Hi) as [_ Le]. destruct (HL (prev_of P i)) as [Lp _]; [apply (ring_ok Hi)|].
      rewrite Lp, <- Le, skipn_all, app_nil_r. reflexivity.
Qed.
Example C68_example (I : impl Z) : exists n,
  ends I (start 3 (fun i => [Obj CInt [Z.of_nat i]; Obj CInt [9%Z]])
      (fun i => comm_Init (comm_Irecv_vec 1 (prev_of 3 i) 4 (comm_Isend_std 0 (next_of 3 i) 4 (comm_Waitall (Ret Z)))))) n /\
  exists r, nth_error (g_ranks n) 0 = Some r /\ objat (r_mem r) 1 = Some (Obj CInt [2%Z]).
Proof.
  destruct (@C68_ring Z I 3 4 CInt 1 (fun i => [Z.of_nat i]) (fun _ => [9%Z])) as (n & E & _ & A).
  - right. right. left. reflexivity.
  - lia.
  - intros i _. split; reflexivity.
  - exists n. split; [exact E|]. destruct (A 0 ltac:(lia)) as (r & X & _ & Y). exists r. split; [exact X|exact Y].
Qed.

(** Isend of a scalar, Irecv of a scalar: always an error, the buffer is a parameter that dies when the call
    returns *)
Theorem C68_isend_scalar_refuted {V} (I : impl V) (s : gst V) i r c t v dst tag k :
  reachable I s -> nth_error (g_ranks s) i = Some r -> ready r c -> dst < length (g_ranks s) -> supported t ->
  r_prog r = comm_Isend_scalar t v dst tag k -> fails I s.
Proof. apply isend_scalar_fails. Qed.
Theorem C68_irecv_scalar_refuted {V} (I : impl V) (s : gst V) j r c src tag b o k :
  reachable I s -> nth_error (g_ranks s) j = Some r -> ready r c -> src < length (g_ranks s) ->
  holds r b o -> supported (o_ty o) -> 0 < length (o_dat o) ->
  r_prog r = comm_Irecv_scalar b src tag k -> fails I s.
Proof. apply irecv_scalar_fails. Qed.

(** Isend of a monolish::vector: an error when no request is outstanding; otherwise the last outstanding
    request is lost, so after Waitall a received vector is not available: the program never reads it *)
Theorem C68_isend_mono_refuted {V} (I : impl V) (s : gst V) i r a dst tag o k :
  reachable I s -> nth_error (g_ranks s) i = Some r -> holds r a o -> supported (o_ty o) ->
  0 < length (o_dat o) -> p_reqs (r_priv r) = [] ->
  r_prog r = comm_Isend_mono a dst tag k -> fails I s.
Proof. apply isend_mono_fails. Qed.
Theorem C68_isend_mono_loses_refuted {V} (I : impl V) (s : gst V) i r a b src dst tag tag' c oa ob K :
  reachable I s -> nth_error (g_ranks s) i = Some r -> ready r c -> p_reqs (r_priv r) = [] ->
  holds r a oa -> holds r b ob -> a <> b -> supported (o_ty oa) -> supported (o_ty ob) ->
  0 < length (o_dat oa) -> 0 < length (o_dat ob) -> src < length (g_ranks s) -> dst < length (g_ranks s) ->
  r_prog r = comm_Irecv_vec b src tag (comm_Isend_mono a dst tag' (comm_Waitall (Read b K))) ->
  forall n, outcome I s (Some n) -> exists r' q k', nth_error (g_ranks n) i = Some r' /\ r_prog r' = Wait [q] k'.
Proof. apply isend_mono_loses. Qed.

(** whole programs for the errors: the hypotheses are met after Init *)
Theorem C68_programs_refuted (I : impl Z) (p : prog Z) :
  (exists v, p = comm_Isend_scalar CDouble v 1 3 (comm_Waitall (Ret Z))) \/
  p = comm_Irecv_scalar 0 1 3 (comm_Waitall (Ret Z)) \/ p = comm_Isend_mono 0 1 3 (comm_Waitall (Ret Z)) \/
  p = comm_Recv_std 0 1 3 (Ret Z) ->
  forall q, fails I (start 2 (fun _ => [Obj CDouble [1%Z]]) (two_ranks p q)).
Proof.
  intros HP q.
  destruct (after_init I 2 (fun _ => [Obj CDouble [1%Z]]) (fun i => match i with 0 => p | 1 => q | _ => Ret Z end))
    as (s & Ld & R & LN & Q & H).
  apply (leads_fails (start_reachable I _ _ _) Ld).
  destruct (nth_error (g_ranks s) 0) as [ri|] eqn:Ei; [|apply nth_error_None in Ei; lia].
  destruct (H _ _ Ei) as (_ & Pi & Ri & Rq & _ & _ & Oi & Wi).
  assert (Ho : holds ri 0 (Obj CDouble [1%Z])) by (split; [apply Oi|apply Wi]).
  assert (Sd : supported CDouble) by (left; reflexivity).
  destruct HP as [(v & ->)|[->|[->| ->]]].
  - eapply C68_isend_scalar_refuted; eauto. lia.
  - eapply C68_irecv_scalar_refuted; eauto; cbn; lia.
  - eapply C68_isend_mono_refuted; eauto.
  - eapply C67_std_recv_refuted; eauto.
Qed.

(** ** C69: Bcast, Allreduce, Barrier *)

(** after Bcast every rank has the elements of the root, and nothing else has changed *)
Theorem C69_bcast_vec {V} (I : impl V) (s : gst V) c root n t (a : nat -> nat) (o : nat -> obj V) (k : nat -> prog V) :
  reachable I s -> root < length (g_ranks s) -> 0 < n -> supported t ->
  (forall i r, nth_error (g_ranks s) i = Some r ->
     r_prog r = comm_Bcast_vec (a i) root (k i) /\ ready r c /\ holds r (a i) (o i) /\
     o_ty (o i) = t /\ length (o_dat (o i)) = n) ->
  exists s', leads I s s' /\ length (g_ranks s') = length (g_ranks s) /\
    (forall c', chan_of s' c' = chan_of s c') /\
    forall i r, nth_error (g_ranks s) i = Some r ->
      exists r', nth_error (g_ranks s') i = Some r' /\ assigned r (a i) (o_dat (o root)) (k i) r'.
Proof. apply bcast_vec_rule. Qed.
Theorem C69_bcast_scalar {V} (I : impl V) (s : gst V) c root t (a : nat -> nat) (o : nat -> obj V) (k : nat -> prog V) :
  reachable I s -> root < length (g_ranks s) -> supported t ->
  (forall i r, nth_error (g_ranks s) i = Some r ->
     r_prog r = comm_Bcast_scalar (a i) root (k i) /\ ready r c /\ holds r (a i) (o i) /\
     o_ty (o i) = t /\ length (o_dat (o i)) = 1) ->
  exists s', leads I s s' /\ length (g_ranks s') = length (g_ranks s) /\
    (forall c', chan_of s' c' = chan_of s c') /\
    forall i r, nth_error (g_ranks s) i = Some r ->
      exists r', nth_error (g_ranks s') i = Some r' /\ assigned r (a i) (o_dat (o root)) (k i) r'.
Proof. apply bcast_scalar_rule. Qed.

(** a whole program: any number of ranks, any root, any data of equal positive length *)
Theorem C69_bcast_program {V} (I : impl V) P root t L (d : nat -> list V) :
  root < P -> supported t -> 0 < L -> (forall i, i < P -> length (d i) = L) ->
  exists n, ends I (start P (fun i => [Obj t (d i)]) (fun i => comm_Init (comm_Bcast_vec 0 root (Ret V)))) n /\
    finished n /\ forall i, i < P -> exists r, nth_error (g_ranks n) i = Some r /\ objat (r_mem r) 0 = Some (Obj t (d root)).
Proof.
  intros HR St L0 HL.
  destruct (after_init I P (fun i => [Obj t (d i)]) (fun i => comm_Bcast_vec 0 root (Ret V))) as (s & Ld & R & LN & Q & H).
  destruct (@C69_bcast_vec V I s 1 root L t (fun _ => 0) (fun i => Obj t (d i)) (fun _ => Ret V) R ltac:(lia) L0 St)
    as (s' & Ld' & LN' & Ch & A).
  - intros i r E. destruct (H i r E) as (Hi & Pg & Rd & _ & _ & _ & O & W).
    split; [exact Pg|]. split; [exact Rd|]. split; [split; [apply O|apply W]|]. split; [reflexivity|apply HL; exact Hi].
  - rewrite LN in *. exists s'.
    assert (G : forall i, i < P -> exists r, nth_error (g_ranks s) i = Some r).
    { intros i Hi. destruct (nth_error (g_ranks s) i) eqn:E; [eauto|]. apply nth_error_None in E. lia. }
    assert (ALL : forall i r, nth_error (g_ranks s') i = Some r -> r_prog r = Ret V).
    { intros i r E. assert (Hi : i < P) by (rewrite <- LN'; apply nth_error_Some; congruence).
      destruct (G i Hi) as [r0 E0]. destruct (A i r0 E0) as (r' & E' & AS). rewrite E' in E. injection E as <-. apply AS. }
    split; [|split].
    + apply leads_ends; [apply start_reachable|exact (leads_trans Ld Ld')|exact ALL|].
      intro c. unfold quiet. rewrite Ch. apply Q.
    + apply Forall_forall. intros r Hr. apply In_nth_error in Hr as [i E]. eauto.
    + intros i Hi. destruct (G i Hi) as [r0 E0]. destruct (A i r0 E0) as (r' & E' & (_ & _ & X & _)).
      destruct (H i r0 E0) as (_ & _ & _ & _ & _ & _ & O & _).
      exists r'. split; [exact E'|]. rewrite X, O. reflexivity.
Qed.
Example C69_example (I : impl Z) : exists n,
  ends I (start 4 (fun i => [Obj CFloat [Z.of_nat i; 1%Z]]) (fun i => comm_Init (comm_Bcast_vec 0 2 (Ret Z)))) n /\
  exists r, nth_error (g_ranks n) 3 = Some r /\ objat (r_mem r) 0 = Some (Obj CFloat [2%Z; 1%Z]).
Proof.
  destruct (@C69_bcast_program Z I 4 2 CFloat 2 (fun i => [Z.of_nat i; 1%Z])) as (n & E & _ & A).
  - lia.
  - right. left. reflexivity.
  - lia.
  - reflexivity.
  - exists n. split; [exact E|]. apply (A 3). lia.
Qed.

(** the public reductions and the operation each must perform *)
Definition reductions {V} : list ((cty -> V -> (V -> prog V) -> prog V) * mop) :=
  [(@comm_Allreduce V, OpSum); (@comm_Allreduce_sum V, OpSum); (@comm_Allreduce_prod V, OpProd);
   (@comm_Allreduce_max V, OpMax); (@comm_Allreduce_min V, OpMin)].
Lemma reductions_core {V} (f : cty -> V -> (V -> prog V) -> prog V) op : In (f, op) reductions -> f = fun t v k => Allreduce_core t v op k.
Proof. intros [E|[E|[E|[E|[E|[]]]]]]; inversion E; reflexivity. Qed.

(** every rank gets the library's reduction of the values of all ranks, provided the library accepts equal send
    and receive buffers *)
Theorem C69_allreduce_partial {V} (I : impl V) (s : gst V) c t f op (v : nat -> V) (k : nat -> V -> prog V) :
  reachable I s -> 0 < length (g_ranks s) -> supported t -> In (f, op) reductions -> i_alias I = true ->
  (forall i r, nth_error (g_ranks s) i = Some r -> r_prog r = f t (v i) (k i) /\ ready r c) ->
  exists s', leads I s s' /\ length (g_ranks s') = length (g_ranks s) /\
    (forall c', chan_of s' c' = chan_of s c') /\
    forall i r, nth_error (g_ranks s) i = Some r ->
      exists r', nth_error (g_ranks s') i = Some r' /\
        continues r (k i (i_red I op (map v (seq 0 (length (g_ranks s)))))) r'.
Proof. intros R L St Hf Al H. rewrite (reductions_core Hf) in H. eapply allreduce_rule; eauto. Qed.
(** the MPI standard does not: "must not alias".  Then every Allreduce is an error. *)
Theorem C69_allreduce_refuted {V} (I : impl V) (s : gst V) c t f op (v : nat -> V) (k : nat -> V -> prog V) :
  reachable I s -> 0 < length (g_ranks s) -> supported t -> In (f, op) reductions -> i_alias I = false ->
  (forall i r, nth_error (g_ranks s) i = Some r -> r_prog r = f t (v i) (k i) /\ ready r c) ->
  fails I s.
Proof. intros R L St Hf Al H. rewrite (reductions_core Hf) in H. eapply allreduce_alias_rule; eauto. Qed.
Theorem C69_allreduce_program_refuted : exists (I : impl Z) (p : nat -> prog Z),
  (forall i, p i = comm_Init (comm_Allreduce CDouble (Z.of_nat i) (fun _ => Ret Z))) /\ fails I (start 2 (fun _ => []) p).
Proof.
  exists (zimpl false). eexists. split; [reflexivity|].
  destruct (after_init (zimpl false) 2 (fun _ => []) (fun i => comm_Allreduce CDouble (Z.of_nat i) (fun _ => Ret Z))) as (s & Ld & R & LN & Q & H).
  apply (leads_fails (start_reachable _ _ _ _) Ld).
  refine (@C69_allreduce_refuted Z (zimpl false) s 1 CDouble _ OpSum _ _ R _ _ (or_introl eq_refl) eq_refl _).
  - lia.
  - left. reflexivity.
  - intros i r E. destruct (H i r E) as (_ & Pg & Rd & _). split; [exact Pg|exact Rd].
Qed.

(** Barrier: when all ranks call it, all of them go on; and a rank leaves it only after a moment at which
    every rank was inside *)
Theorem C69_barrier {V} (I : impl V) (s : gst V) c k :
  reachable I s -> 0 < length (g_ranks s) ->
  (forall i r, nth_error (g_ranks s) i = Some r -> r_prog r = comm_Barrier (k i) /\ ready r c) ->
  exists s', leads I s s' /\ length (g_ranks s') = length (g_ranks s) /\
    (forall c', chan_of s' c' = chan_of s c') /\
    forall i r, nth_error (g_ranks s) i = Some r ->
      exists r', nth_error (g_ranks s') i = Some r' /\ continues r (k i) r'.
Proof. apply barrier_rule. Qed.
Theorem C69_barrier_waits {V} (I : impl V) (s n : gst V) tr i r r' c k :
  exec I (Some s) tr (Some n) -> nth_error (g_ranks s) i = Some r -> r_prog r = Coll c CBarrier k ->
  nth_error (g_ranks n) i = Some r' -> r_prog r' <> r_prog r ->
  exists t t1 t2, exec I (Some s) t1 (Some t) /\ exec I (Some t) t2 (Some n) /\
    Forall (fun x => exists c' y k', r_prog x = Coll c' y k') (g_ranks t) /\
    exists rt, nth_error (g_ranks t) i = Some rt /\ r_prog rt = r_prog r.
Proof.
  intros E Er Pr Er' N.
  destruct (@barrier_waits_exec V I _ _ _ E s n i r r' eq_refl eq_refl Er ltac:(unfold in_coll; rewrite Pr; reflexivity) Er' N)
    as (t & t1 & t2 & A & B & F & C).
  exists t, t1, t2. split; [exact A|]. split; [exact B|]. split; [|exact C].
  rewrite Forall_forall in *. intros x Hx. specialize (F x Hx). unfold in_coll in F. destruct (r_prog x); try discriminate. eauto.
Qed.

(** ** C70: Gather and Scatter *)

(** with two ranks or more every call is an error: whatever vectors are passed *)
Theorem C70_gather_scatter_refuted {V} (I : impl V) (f : nat -> nat -> nat -> prog V -> prog V) (s : gst V) c root
  (sa ra : nat -> nat) (so ro : nat -> obj V) (k : nat -> prog V) :
  f = @comm_Gather V \/ f = @comm_Scatter V ->
  reachable I s -> 2 <= length (g_ranks s) -> root < length (g_ranks s) ->
  (forall i r, nth_error (g_ranks s) i = Some r ->
     r_prog r = f (sa i) (ra i) root (k i) /\ ready r c /\ holds r (sa i) (so i) /\ holds r (ra i) (ro i) /\
     supported (o_ty (so i)) /\ supported (o_ty (ro i))) ->
  fails I s.
Proof.
  intros [-> | ->] R L Lr H.
  - exact (@gather_scatter_fails V I true s c root sa ra so ro k R L Lr H).
  - exact (@gather_scatter_fails V I false s c root sa ra so ro k R L Lr H).
Qed.
(** with one rank the call goes through but the receiving vector is not assigned *)
Theorem C70_one_rank_refuted {V} (I : impl V) (f : nat -> nat -> nat -> prog V -> prog V) (s : gst V) c sa ra so ro k r :
  f = @comm_Gather V \/ f = @comm_Scatter V ->
  reachable I s -> g_ranks s = [r] ->
  r_prog r = f sa ra 0 k -> ready r c -> holds r sa so -> holds r ra ro ->
  supported (o_ty so) -> o_ty so = o_ty ro -> 0 < length (o_dat so) -> length (o_dat so) = length (o_dat ro) ->
  exists s' r', leads I s s' /\ g_ranks s' = [r'] /\ continues r k r'.
Proof.
  intros [-> | ->].
  - exact (@gather_scatter_one V I true s c sa ra so ro k r).
  - exact (@gather_scatter_one V I false s c sa ra so ro k r).
Qed.
(** a concrete program: three ranks, the sizes a user would choose (1 element each, 3 at the root) *)
Theorem C70_gather_program_refuted (I : impl Z) :
  fails I (start 3 (fun i => [Obj CDouble [Z.of_nat i]; Obj CDouble [0; 0; 0]%Z])
                   (fun i => comm_Init (comm_Gather 0 1 0 (Ret Z)))).
Proof.
  destruct (after_init I 3 (fun i => [Obj CDouble [Z.of_nat i]; Obj CDouble [0; 0; 0]%Z]) (fun i => comm_Gather 0 1 0 (Ret Z)))
    as (s & Ld & R & LN & Q & H).
  apply (leads_fails (start_reachable _ _ _ _) Ld).
  refine (@C70_gather_scatter_refuted Z I (@comm_Gather Z) s 1 0 (fun _ => 0) (fun _ => 1) (fun i => Obj CDouble [Z.of_nat i])
     (fun _ => Obj CDouble [0; 0; 0]%Z) (fun _ => Ret Z) (or_introl eq_refl) R _ _ _); try lia.
  intros i r E. destruct (H i r E) as (_ & Pg & Rd & _ & _ & _ & O & W).
  split; [exact Pg|]. split; [exact Rd|]. split; [split; [apply O|apply W]|]. split; [split; [apply O|apply W]|].
  split; left; reflexivity.
Qed.

(** ** C71: dot, nrm2, asum, nrm1, sum of a distributed vector *)

(** [whole P M x]: the elements of rank 0, then those of rank 1, ... ([M i] is the memory of rank i, [x i] its
    vector).  [red_val (local_part red) m v]: the part of the function before the call of Allreduce can yield [v]
    on memory [m]; [global_part red t v k]: the rest of the function.  [adds I]: the library adds the
    contributions in some order. *)
Definition adds {F} {SF : Scalar F} (I : impl F) : Prop :=
  forall l, l <> [] -> ReduceModel.combine fadd l (i_red I OpSum l).

Section Distributed.
Context {F : Type} {SF : Scalar F}.
Local Open Scope F_scope.

Lemma distributed (Hex : exact SF) (I : impl F) (s : gst F) c t (red : nat -> reduction) (M : nat -> mem F) (x y : nat -> arg)
  (g : F -> F -> F) (post : F -> F) (ans : nat -> F) (k : nat -> F -> prog F) :
  let P := length (g_ranks s) in
  adds I -> i_alias I = true -> reachable I s -> (0 < P)%nat -> supported t ->
  (forall i, (i < P)%nat -> a_len (x i) = a_len (y i) /\ red_val (local_part (red i)) (M i) (ans i)) ->
  (forall i, (i < P)%nat -> returns (local_part (red i)) (M i) (sum_n (a_len (x i)) (fun j => g (el (M i) (x i) j) (el (M i) (y i) j)))) ->
  (forall i v, r_post (red i) v = post v) ->
  (forall i r, nth_error (g_ranks s) i = Some r -> r_prog r = global_part (red i) t (ans i) (k i) /\ ready r c) ->
  exists s', leads I s s' /\ length (g_ranks s') = P /\ (forall c', chan_of s' c' = chan_of s c') /\
    forall i r, nth_error (g_ranks s) i = Some r -> exists r', nth_error (g_ranks s') i = Some r' /\
      continues r (k i (post (sum_n (length (whole P M x)) (fun j => g (nth j (whole P M x) 0) (nth j (whole P M y) 0))))) r'.
Proof.
  cbn zeta. intros Ad Al R L0 St HA HR HP HG.
  destruct (@global_reduce F SF Hex I Ad s c t red ans
     (fun i => sum_n (a_len (x i)) (fun j => g (el (M i) (x i) j) (el (M i) (y i) j))) k R L0 St Al HG) as (s' & Ld & LN & Ch & A).
  - intros i Hi. destruct (HR i Hi) as (_ & U & _). apply U. apply HA. exact Hi.
  - exists s'. split; [exact Ld|]. split; [exact LN|]. split; [exact Ch|].
    intros i r E. destruct (A i r E) as (r' & E' & C). exists r'. split; [exact E'|].
    rewrite (sum_whole Hex); [|intros; apply HA; assumption]. rewrite <- (HP i). exact C.
Qed.

Theorem C71_dot_partial (I : impl F) (s : gst F) c t (M : nat -> mem F) (x y : nat -> arg) (ans : nat -> F) (k : nat -> F -> prog F) :
  let P := length (g_ranks s) in let X := whole P M x in let Y := whole P M y in
  exact SF -> adds I -> i_alias I = true -> reachable I s -> (0 < P)%nat -> supported t ->
  (forall i, (i < P)%nat -> arg_ok (M i) (x i) /\ arg_ok (M i) (y i) /\ a_len (x i) = a_len (y i) /\
     red_val (local_part (r_dot (x i) (y i))) (M i) (ans i)) ->
  (forall i r, nth_error (g_ranks s) i = Some r -> r_prog r = global_part (r_dot (x i) (y i)) t (ans i) (k i) /\ ready r c) ->
  exists s', leads I s s' /\ length (g_ranks s') = P /\ (forall c', chan_of s' c' = chan_of s c') /\
    forall i r, nth_error (g_ranks s) i = Some r -> exists r', nth_error (g_ranks s') i = Some r' /\
      continues r (k i (dotp (length X) (fun j => nth j X 0) (fun j => nth j Y 0))) r'.
Proof.
  cbn zeta. intros Hex Ad Al R L0 St HA HG.
  refine (@distributed Hex I s c t (fun i => r_dot (x i) (y i)) M x y fmul (fun v => v) ans k Ad Al R L0 St _ _ _ HG).
  - intros i Hi. destruct (HA i Hi) as (_ & _ & E & V). split; assumption.
  - intros i Hi. destruct (HA i Hi) as (Ax & Ay & E & V).
    refine (@additive_returns F SF Hex (same2 (x i) (y i)) _ _ (fun v => v) (M i) (fun j => fmul (el (M i) (x i) j) (el (M i) (y i) j)) _ _).
    + unfold same2. now apply Nat.eqb_eq.
    + intros j Hj. unfold r_dot, additive in *. cbn [r_n r_term] in *. rewrite (el_ld Ax Hj). rewrite E in Hj. cbn [bind]. rewrite (el_ld Ay Hj). reflexivity.
  - reflexivity.
Qed.

(** the functions of one vector: the value of one element, and what is done with the total *)
Definition one_vector : list ((arg -> reduction) * (F -> F) * (F -> F)) :=
  [(r_sum, fun v => v, fun v => v); (r_asum, fabs, fun v => v); (r_nrm1, fabs, fun v => v);
   (r_nrm2, fun v => v * v, fsqrt)].
Theorem C71_one_vector_partial (I : impl F) (s : gst F) c t f term post (M : nat -> mem F) (x : nat -> arg) (ans : nat -> F) (k : nat -> F -> prog F) :
  let P := length (g_ranks s) in let X := whole P M x in
  In (f, term, post) one_vector ->
  exact SF -> adds I -> i_alias I = true -> reachable I s -> (0 < P)%nat -> supported t ->
  (forall i, (i < P)%nat -> arg_ok (M i) (x i) /\ red_val (local_part (f (x i))) (M i) (ans i)) ->
  (forall i r, nth_error (g_ranks s) i = Some r -> r_prog r = global_part (f (x i)) t (ans i) (k i) /\ ready r c) ->
  exists s', leads I s s' /\ length (g_ranks s') = P /\ (forall c', chan_of s' c' = chan_of s c') /\
    forall i r, nth_error (g_ranks s) i = Some r -> exists r', nth_error (g_ranks s') i = Some r' /\
      continues r (k i (post (sum_n (length X) (fun j => term (nth j X 0))))) r'.
Proof.
  cbn zeta. intros Hf Hex Ad Al R L0 St HA HG.
  refine (@distributed Hex I s c t (fun i => f (x i)) M x x (fun v _ => term v) post ans k Ad Al R L0 St _ _ _ HG).
  - intros i Hi. destruct (HA i Hi) as (_ & V). split; [reflexivity|exact V].
  - intros i Hi. destruct (HA i Hi) as (Ax & _).
    destruct Hf as [E|[E|[E|[E|[]]]]]; inversion E; subst f term post;
    refine (@additive_returns F SF Hex true _ _ (fun v => v) (M i) _ _ _); auto;
    intros j Hj; unfold r_sum, r_asum, r_nrm1, r_nrm2, additive in *; cbn [r_n r_term] in *; rewrite (el_ld Ax Hj); reflexivity.
  - intros i v. destruct Hf as [E|[E|[E|[E|[]]]]]; inversion E; subst; reflexivity.
Qed.

(** without Init, or with a library that insists on distinct buffers, the call is an error *)
Theorem C71_before_init_refuted (I : impl F) (s : gst F) c t (red : nat -> reduction) (ans : nat -> F) (k : nat -> F -> prog F) :
  reachable I s -> (0 < length (g_ranks s))%nat -> supported t ->
  (forall i r, nth_error (g_ranks s) i = Some r ->
     r_prog r = global_part (red i) t (ans i) (k i) /\ p_init (r_priv r) = false /\ p_comm (r_priv r) = c) ->
  fails I s.
Proof.
  intros R L St H. exact (@allreduce_init_rule F I s c t OpSum ans (fun i v => k i (r_post (red i) v)) R L St H).
Qed.
Theorem C71_alias_refuted (I : impl F) (s : gst F) c t (red : nat -> reduction) (ans : nat -> F) (k : nat -> F -> prog F) :
  reachable I s -> (0 < length (g_ranks s))%nat -> supported t -> i_alias I = false ->
  (forall i r, nth_error (g_ranks s) i = Some r -> r_prog r = global_part (red i) t (ans i) (k i) /\ ready r c) ->
  fails I s.
Proof.
  intros R L St Al H. exact (@allreduce_alias_rule F I s c t OpSum ans (fun i v => k i (r_post (red i) v)) R L St Al H).
Qed.
End Distributed.

(** concretely: 14 on both ranks, for the distributed vector (1, 2 | 3) *)
Lemma zimpl_adds al : adds (zimpl al).
Proof.
  intros l N. cbn [zimpl i_red]. induction l as [|a l IH]; [congruence|]. destruct l as [|b l].
  - cbn [fold_right]. rewrite Z.add_0_r. constructor.
  - change (fold_right Z.add 0%Z (a :: b :: l)) with (fadd a (fold_right Z.add 0%Z (b :: l))).
    eapply comb_op with (l1 := [a]); [constructor|apply IH; discriminate|]. reflexivity.
Qed.
Definition ex_mem (i : nat) : mem Z := match i with 0 => [[1; 2]%Z] | _ => [[3]%Z] end.
Definition ex_arg (i : nat) : arg := mkArg (0, 0) (match i with 0 => 2 | _ => 1 end).
Definition ex_loc (i : nat) : Z := match i with 0 => 5%Z | _ => 9%Z end.
Example C71_example : exists n,
  ends (zimpl true) (start 2 (fun _ => [Obj CDouble [0%Z]])
     (fun i => comm_Init (global_part (r_dot (ex_arg i) (ex_arg i)) CDouble (ex_loc i) (fun v => Write 0 [v] (Ret Z))))) n /\
  forall i, i < 2 -> red_val (local_part (r_dot (ex_arg i) (ex_arg i))) (ex_mem i) (ex_loc i) /\
    exists r, nth_error (g_ranks n) i = Some r /\ objat (r_mem r) 0 = Some (Obj CDouble [14%Z]).
Proof.
  destruct (after_init (zimpl true) 2 (fun _ => [Obj CDouble [0%Z]])
     (fun i => global_part (r_dot (ex_arg i) (ex_arg i)) CDouble (ex_loc i) (fun v => Write 0 [v] (Ret Z)))) as (s & Ld & R & LN & Q & H).
  assert (AO : forall i, i < 2 -> arg_ok (ex_mem i) (ex_arg i)).
  { intros [|[|i]] Hi j Hj; try lia; unfold valid; cbn in *; lia. }
  assert (RV : forall i, i < 2 -> red_val (local_part (r_dot (ex_arg i) (ex_arg i))) (ex_mem i) (ex_loc i)).
  { intros i Hi.
    assert (X := @additive_returns Z _ Z_exact (same2 (ex_arg i) (ex_arg i)) (a_len (ex_arg i))
      (fun m j => a <- ld m (padd (a_ptr (ex_arg i)) j) ;; b <- ld m (padd (a_ptr (ex_arg i)) j) ;; Ok (fmul a b)) (fun v => v) (ex_mem i)
      (fun j => fmul (el (ex_mem i) (ex_arg i) j) (el (ex_mem i) (ex_arg i) j))).
    destruct X as (V & _).
    - unfold same2. apply Nat.eqb_refl.
    - intros j Hj. rewrite (el_ld (AO i Hi) Hj). reflexivity.
    - destruct i as [|[|i]]; try lia; exact V. }
  destruct (@C71_dot_partial Z _ (zimpl true) s 1 CDouble ex_mem ex_arg ex_arg ex_loc (fun _ v => Write 0 [v] (Ret Z)) Z_exact (zimpl_adds true) eq_refl R)
    as (s1 & Ld1 & LN1 & Ch1 & A1).
  - rewrite LN. lia.
  - left. reflexivity.
  - rewrite LN. intros i Hi. split; [apply AO; exact Hi|]. split; [apply AO; exact Hi|]. split; [reflexivity|apply RV; exact Hi].
  - intros i r E. destruct (H i r E) as (_ & Pg & Rd & _). split; assumption.
  - rewrite LN in *.
    destruct (nth_error (g_ranks s) 0) as [r0|] eqn:E0; [|apply nth_error_None in E0; lia].
    destruct (nth_error (g_ranks s) 1) as [r1|] eqn:E1; [|apply nth_error_None in E1; lia].
    destruct (A1 0 r0 E0) as (q0 & F0 & C0). destruct (A1 1 r1 E1) as (q1 & F1 & C1).
    change (dotp _ _ _) with 14%Z in C0, C1.
    set (fin := fun (i : nat) (r : rst Z) => with_mem r (set_dat (r_mem r) 0 [14%Z]) (Ret Z)).
    assert (SO : forall i r, nth_error (g_ranks s1) i = Some r -> solo r (fin i r)).
    { intros i r E. assert (Hi : i < 2) by (rewrite <- LN1; apply nth_error_Some; congruence).
      assert (X : exists r', nth_error (g_ranks s) i = Some r' /\ continues r' (Write 0 [14%Z] (Ret Z)) r).
      { destruct i as [|[|i]]; [| |lia].
        - rewrite F0 in E. injection E as <-. exists r0. split; [exact E0|exact C0].
        - rewrite F1 in E. injection E as <-. exists r1. split; [exact E1|exact C1]. }
      destruct X as (r' & E' & (Pg & _ & O & W)). destruct (H i r' E') as (_ & _ & _ & _ & _ & _ & O' & W').
      apply solo_one. intros P' j ns nr. unfold rank_step. rewrite Pg, O, O'. cbn [nth_error]. rewrite W, W'. reflexivity. }
    destruct (@exec_solo_all Z (zimpl true) fin s1 SO) as (tr & l & E & PW).
    assert (R1 := leads_reachable R Ld1).
    assert (Ld2 := leads_intro R1 E).
    assert (N0 := pw_nth 0 PW F0). assert (N1 := pw_nth 1 PW F1).
    assert (LL : length l = 2) by (rewrite (MpiProof.pointwise_length PW); exact LN1).
    exists (Gst l (g_chans s1)). split.
    + apply leads_ends; [apply start_reachable|exact (leads_trans Ld (leads_trans Ld1 Ld2))| |].
      * cbn [g_ranks]. intros i r X. assert (Hi : i < 2) by (rewrite <- LL; apply nth_error_Some; congruence).
        destruct i as [|[|i]]; [rewrite N0 in X|rewrite N1 in X|lia]; injection X as <-; reflexivity.
      * intro c. assert (Y := Q c). rewrite <- (Ch1 c) in Y || (unfold quiet in *; change (chan_of (Gst l (g_chans s1)) c) with (chan_of s1 c); rewrite Ch1; exact Y).
    + intros i Hi. split; [apply RV; exact Hi|]. cbn [g_ranks].
      assert (OB : forall r r', continues r (Write 0 [14%Z] (Ret Z)) r' -> (forall b, objat (r_mem r) b = nth_error [Obj CDouble [0%Z]] b) ->
        objat (r_mem (fin i r')) 0 = Some (Obj CDouble [14%Z])).
      { intros r r' (_ & _ & O & _) O'. cbn [fin with_mem r_mem]. unfold set_dat.
        assert (Z : objat (r_mem r') 0 = Some (Obj CDouble [0%Z])) by (rewrite O, O'; reflexivity).
        rewrite Z. eapply MpiProof.objat_upd_eq. exact Z. }
      destruct i as [|[|i]]; [| |lia].
      * exists (fin 0 q0). split; [exact N0|]. apply (OB r0 q0 C0). apply (H 0 r0 E0).
      * exists (fin 1 q1). split; [exact N1|]. apply (OB r1 q1 C1). apply (H 1 r1 E1).
Qed.

(** ** C72: Init, Initialized, rank and size *)

(** Init on every rank: MPI is initialised, the communicator is MPI_COMM_WORLD, the variables are unchanged *)
Theorem C72_init {V} (I : impl V) P (m : nat -> list (obj V)) (k : nat -> prog V) :
  exists s, leads I (start P m (fun i => comm_Init (k i))) s /\ reachable I s /\ length (g_ranks s) = P /\
    (forall c, quiet s c) /\
    forall i r, nth_error (g_ranks s) i = Some r ->
      i < P /\ r_prog r = k i /\ ready r 1 /\ p_reqs (r_priv r) = [] /\ p_rank (r_priv r) = i /\ p_size (r_priv r) = P /\
      (forall b, objat (r_mem r) b = nth_error (m i) b) /\ (forall b, writable r b = true).
Proof. apply after_init. Qed.
(** the second Init is an error *)
Theorem C72_init_twice_fails {V} (I : impl V) (s : gst V) i r k : reachable I s -> nth_error (g_ranks s) i = Some r ->
  p_init (r_priv r) = true -> r_prog r = comm_Init k -> fails I s.
Proof. apply init_twice_fails. Qed.
(** get_rank and get_size *)
Theorem C72_rank_size {V} (I : impl V) (s : gst V) i r c k : reachable I s -> nth_error (g_ranks s) i = Some r -> ready r c ->
  (r_prog r = comm_get_rank k -> leads I s (Gst (upd (g_ranks s) i (with_prog r (k (p_rank (r_priv r))))) (g_chans s))) /\
  (r_prog r = comm_get_size k -> leads I s (Gst (upd (g_ranks s) i (with_prog r (k (p_size (r_priv r))))) (g_chans s))).
Proof. apply rank_size_rule. Qed.
(** Initialized answers the opposite of the truth: the guard [if (!comm.Initialized()) comm.Init();] that a
    careful program uses is an error after Init and does nothing before *)
Theorem C72_initialized_refuted {V} (I : impl V) (s : gst V) i r k : reachable I s -> nth_error (g_ranks s) i = Some r ->
  r_prog r = comm_Initialized k ->
  leads I s (Gst (upd (g_ranks s) i (with_prog r (k (negb (p_init (r_priv r)))))) (g_chans s)).
Proof. apply initialized_rule. Qed.
Theorem C72_guarded_init_refuted {V} (I : impl V) P (m : nat -> list (obj V)) (k : prog V) :
  0 < P -> fails I (start P m (fun _ => comm_Init (comm_Initialized (fun b => if b then k else comm_Init k)))).
Proof.
  intro HP.
  destruct (after_init I P m (fun _ => comm_Initialized (fun b => if b then k else comm_Init k))) as (s & Ld & R & LN & Q & H).
  apply (leads_fails (start_reachable _ _ _ _) Ld).
  destruct (nth_error (g_ranks s) 0) as [r|] eqn:E; [|apply nth_error_None in E; lia].
  destruct (H 0 r E) as (_ & Pg & (Hi & _) & _).
  assert (L2 := @C72_initialized_refuted V I s 0 r _ R E Pg). rewrite Hi in L2. cbn [negb] in L2.
  apply (leads_fails R L2). assert (R2 := leads_reachable R L2).
  eapply C72_init_twice_fails; [exact R2|cbn [g_ranks]; eapply nth_error_upd_eq; exact E|exact Hi|reflexivity].
Qed.

Print Assumptions C66_one_outcome.
Print Assumptions C66_still_ahead.
Print Assumptions C66_no_infinite_run.
Print Assumptions C66_bounded.
Print Assumptions C67_in_order.
Print Assumptions C67_send_recv.
Print Assumptions C67_send_recv_all.
Print Assumptions C67_mismatch_fails.
Print Assumptions C67_program.
Print Assumptions C67_scalar_recv_refuted.
Print Assumptions C67_std_recv_refuted.
Print Assumptions C67_scalar_program_refuted.
Print Assumptions C68_exchange.
Print Assumptions C68_ring.
Print Assumptions C68_isend_scalar_refuted.
Print Assumptions C68_irecv_scalar_refuted.
Print Assumptions C68_isend_mono_refuted.
Print Assumptions C68_isend_mono_loses_refuted.
Print Assumptions C68_programs_refuted.
Print Assumptions C69_bcast_vec.
Print Assumptions C69_bcast_scalar.
Print Assumptions C69_bcast_program.
Print Assumptions C69_allreduce_partial.
Print Assumptions C69_allreduce_refuted.
Print Assumptions C69_allreduce_program_refuted.
Print Assumptions C69_barrier.
Print Assumptions C69_barrier_waits.
Print Assumptions C70_gather_scatter_refuted.
Print Assumptions C70_one_rank_refuted.
Print Assumptions C70_gather_program_refuted.
Print Assumptions C71_dot_partial.
Print Assumptions C71_one_vector_partial.
Print Assumptions C71_before_init_refuted.
Print Assumptions C71_alias_refuted.
Print Assumptions C72_init.
Print Assumptions C72_init_twice_fails.
Print Assumptions C72_rank_size.
Print Assumptions C72_initialized_refuted.
Print Assumptions C72_guarded_init_refuted.
