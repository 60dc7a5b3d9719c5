(** * PropertiesGaps3: C69, all collective calls that do not fit together (added because edits of the rules for Allreduce and
    Scatter survived the other theorems, seeded/LOG.jsonl).

    Every rank has reached a collective call of the communicator class; two ranks disagree about the operation, the root, the type or
    the number of elements.  Then the program ends in an error on every schedule. *)
From Coq Require Import List Arith Bool Lia ZArith.
From Verif Require Import Base MpiMap MpiModel MpiProof MpiProof5 MpiSpec MpiProof6 MpiProof7 MpiProof8 MpiProof10 MpiProof11 MpiProof12 MpiProof13 PropertiesMpi
  PropertiesMpiFail.
Import ListNotations.
Set Implicit Arguments.

(** what a rank calls; [a], [sa], [ra]: the variables that are passed *)
Inductive a_call (V : Type) : Type :=
| DoBarrier
| DoBcast (a root : nat)
| DoAllreduce (t : cty) (v : V) (op : mop)
| DoGather (sa ra root : nat)
| DoScatter (sa ra root : nat).
Arguments DoBarrier {V}. Arguments DoBcast {V}. Arguments DoGather {V}. Arguments DoScatter {V}.

Definition allreduce_of {V} (op : mop) : cty -> V -> (V -> prog V) -> prog V :=
  match op with
  | OpSum => @comm_Allreduce_sum V | OpProd => @comm_Allreduce_prod V
  | OpMax => @comm_Allreduce_max V | OpMin => @comm_Allreduce_min V
  end.
Definition the_call {V} (x : a_call V) (k : V -> prog V) (k0 : prog V) : prog V :=
  match x with
  | DoBarrier => comm_Barrier k0
  | DoBcast a root => comm_Bcast_vec a root k0
  | DoAllreduce t v op => allreduce_of op t v k
  | DoGather sa ra root => comm_Gather sa ra root k0
  | DoScatter sa ra root => comm_Scatter sa ra root k0
  end.
(** the arguments are vectors of a supported type with at least one element: [so] what is sent (or broadcast), [ro] what is received into *)
Definition args_fine {V} (r : rst V) (x : a_call V) (so ro : obj V) : Prop :=
  match x with
  | DoBarrier => True
  | DoBcast a _ => holds r a so /\ supported (o_ty so) /\ 0 < length (o_dat so)
  | DoAllreduce t _ _ => supported t
  | DoGather sa ra _ | DoScatter sa ra _ =>
      holds r sa so /\ holds r ra ro /\ supported (o_ty so) /\ supported (o_ty ro) /\ 0 < length (o_dat so) /\ 0 < length (o_dat ro)
  end.
(** two ranks of [P] agree; for Gather all ranks send, for Scatter all ranks receive the same *)
Definition agree {V} (P : nat) (x x' : a_call V) (so ro so' ro' : obj V) : Prop :=
  match x, x' with
  | DoBarrier, DoBarrier => True
  | DoBcast _ r, DoBcast _ r' => r = r' /\ r < P /\ o_ty so = o_ty so' /\ length (o_dat so) = length (o_dat so')
  | DoAllreduce t _ op, DoAllreduce t' _ op' => t = t' /\ op = op'
  | DoGather _ _ r, DoGather _ _ r' => r = r' /\ r < P /\ o_ty so = o_ty so' /\ length (o_dat so) = length (o_dat so')
  | DoScatter _ _ r, DoScatter _ _ r' => r = r' /\ r < P /\ o_ty ro = o_ty ro' /\ length (o_dat ro) = length (o_dat ro')
  | _, _ => False
  end.

Lemma mop_eqb_eq a b : mop_eqb a b = true -> a = b.
Proof. destruct a, b; cbn; congruence. Qed.
Lemma get_type_inj t t' m : supported t -> supported t' -> get_type t = Some m -> get_type t' = Some m -> t = t'.
Proof. intros [->|[->|[->| ->]]] [->|[->|[->| ->]]]; cbn; congruence. Qed.

Section Mismatch.
Context {V : Type} (I : impl V).

Definition tyof (t : cty) : mty := match get_type t with Some m => m | None => MDouble end.
Lemma tyof_ok t : supported t -> get_type t = Some (tyof t).
Proof. intro S. unfold tyof. destruct (supported_type S) as [m ->]. reflexivity. Qed.

(** the state of a rank inside the call *)
Definition inside (c : nat) (x : a_call V) (so ro : obj V) (k : V -> prog V) (k0 : prog V) (r : rst V) : rst V :=
  let n := length (r_mem r) in
  match x with
  | DoBarrier => with_prog r (Coll c CBarrier k0)
  | DoBcast a root => with_prog r (Coll c (CBcast a (length (o_dat so)) (mt so) root) k0)
  | DoAllreduce t v op => with_mem r (r_mem r ++ [Some (Obj t [v])])
      (Coll c (CAllreduce n n 1 (tyof t) op) (Read n (fun o => Free n (match o_dat o with y :: _ => k y | [] => Crash V end))))
  | DoGather sa _ root => with_mem r (r_mem r ++ [Some ro]) (Coll c (gs_coll true sa n root so ro) (Free n k0))
  | DoScatter sa _ root => with_mem r (r_mem r ++ [Some ro]) (Coll c (gs_coll false sa n root so ro) (Free n k0))
  end.

Lemma solo_inside r c x so ro k k0 : r_prog r = the_call x k k0 -> ready r c -> args_fine r x so ro -> solo r (inside c x so ro k k0 r).
Proof.
  intros Pg (Hin & Hc & C0) HX. destruct x as [|a root|t v op|sa ra root|sa ra root]; cbn [the_call args_fine inside] in *.
  - eapply solo_trans; [exact (@solo_get_comm _ r _ Pg)|]. rewrite Hc. constructor.
  - destruct HX as ((O & W) & S & L). eapply solo_trans; [exact (@solo_get_comm _ r _ Pg)|]. rewrite Hc.
    eapply solo_trans; [eapply solo_read; [reflexivity|exact O|apply writable_readable; exact W]|].
    cbv beta. destruct (Nat.eqb_spec (length (o_dat so)) 0); [lia|]. unfold with_type. rewrite (mt_ok _ S). constructor.
  - assert (Pg' : r_prog r = Allreduce_core t v op k) by (rewrite Pg; destruct op; reflexivity).
    eapply solo_trans; [exact (@solo_get_comm _ r _ Pg')|]. rewrite Hc.
    apply solo_one. intros. unfold rank_step. cbn [with_prog r_prog r_mem]. unfold with_type. rewrite (tyof_ok HX). reflexivity.
  - destruct HX as (H1 & H2 & S1 & S2 & L1 & L2).
    exact (@solo_gs V true r c root (fun _ => sa) (fun _ => ra) (fun _ => so) (fun _ => ro) (fun _ => k0) 0 Pg Hc H1 H2 S1 S2 L1 L2).
  - destruct HX as (H1 & H2 & S1 & S2 & L1 & L2).
    exact (@solo_gs V false r c root (fun _ => sa) (fun _ => ra) (fun _ => so) (fun _ => ro) (fun _ => k0) 0 Pg Hc H1 H2 S1 S2 L1 L2).
Qed.

Theorem C69_collectives_mismatch (s : gst V) c (x : nat -> a_call V) (so ro : nat -> obj V) (k : nat -> V -> prog V) (k0 : nat -> prog V) i j :
  reachable I s -> i < length (g_ranks s) -> j < length (g_ranks s) ->
  (forall n r, nth_error (g_ranks s) n = Some r ->
     r_prog r = the_call (x n) (k n) (k0 n) /\ ready r c /\ args_fine r (x n) (so n) (ro n)) ->
  ~ agree (length (g_ranks s)) (x i) (x j) (so i) (ro i) (so j) (ro j) ->
  fails I s.
Proof.
  intros R Hi Hj H NF. set (P := length (g_ranks s)) in *.
  set (g := fun n (r : rst V) => inside c (x n) (so n) (ro n) (k n) (k0 n) r).
  destruct (@exec_solo_all V I g s) as (tr & l & E & PW).
  { intros n r Er. destruct (H n r Er) as (Pg & Rd & HX). now apply solo_inside. }
  assert (LEN : length l = P) by exact (pointwise_length PW).
  assert (RK : forall n, n < P -> exists r, nth_error (g_ranks s) n = Some r /\ rk l n = g n r).
  { intros n Hn. destruct (nth_error (g_ranks s) n) as [r|] eqn:Er; [|apply nth_error_None in Er; unfold P in Hn; lia].
    exists r. split; auto. unfold rk. apply nth_error_nth. exact (pw_nth n PW Er). }
  eapply fails_intro; [exact R|]. eapply exec_app; [exact E|]. apply exec_coll_err. cbn [g_ranks].
  apply (@coll_disagree V I l i j); rewrite ?LEN; auto.
  - intros n Hn. destruct (RK n Hn) as (r & _ & ->). unfold g, inside. destruct (x n); reflexivity.
  - destruct (RK i Hi) as (ri & Ei & ->), (RK j Hj) as (rj & Ej & ->).
    destruct (H i ri Ei) as (_ & _ & Xi), (H j rj Ej) as (_ & _ & Xj). clear H RK E PW. unfold g.
    intros x0 C1 C2. apply NF. clear NF. unfold agree.
    destruct (x i), (x j); unfold inside in C1, C2; cbn [coll_args with_prog with_mem r_prog gs_coll args_fine] in *; destruct x0; cbn [compat] in C1, C2;
      try discriminate; auto; rewrite !andb_true_iff in C1, C2.
    + destruct C1 as (((A1 & A2) & A3) & A4), C2 as (((B1 & B2) & B3) & B4).
      apply Nat.eqb_eq in A1, A3, B1, B3. apply Nat.ltb_lt in A4. apply mty_eqb_eq in A2, B2. destruct Xi as (_ & S1 & _), Xj as (_ & S2 & _).
      split; [lia|]. split; [lia|]. split; [|lia]. apply (@get_type_inj _ _ (mt (so i))); auto; [now apply mt_ok|]. rewrite <- A2, B2. now apply mt_ok.
    + destruct C1 as ((A1 & A2) & A3), C2 as ((B1 & B2) & B3). apply mty_eqb_eq in A2, B2. apply mop_eqb_eq in A3, B3.
      split; [|congruence]. apply (@get_type_inj _ _ (tyof t)); auto; [now apply tyof_ok|]. rewrite <- A2, B2. now apply tyof_ok.
    + destruct C1 as (((A1 & A2) & A3) & A4), C2 as (((B1 & B2) & B3) & B4).
      apply Nat.eqb_eq in A1, A3, B1, B3. apply Nat.ltb_lt in A4. apply mty_eqb_eq in A2, B2.
      destruct Xi as (_ & _ & S1 & _), Xj as (_ & _ & S2 & _).
      split; [lia|]. split; [lia|]. split; [|lia]. apply (@get_type_inj _ _ (mt (so i))); auto; [now apply mt_ok|]. rewrite <- A2, B2. now apply mt_ok.
    + destruct C1 as (((A1 & A2) & A3) & A4), C2 as (((B1 & B2) & B3) & B4).
      apply Nat.eqb_eq in A1, A3, B1, B3. apply Nat.ltb_lt in A4. apply mty_eqb_eq in A2, B2.
      destruct Xi as (_ & _ & _ & S1 & _), Xj as (_ & _ & _ & S2 & _).
      split; [lia|]. split; [lia|]. split; [|lia]. apply (@get_type_inj _ _ (mt (ro i))); auto; [now apply mt_ok|]. rewrite <- A2, B2. now apply mt_ok.
Qed.
End Mismatch.
Print Assumptions C69_collectives_mismatch.

(** programs: one rank takes the sum, the others the maximum; and ranks that receive different numbers of elements from Scatter *)
Theorem C69_allreduce_mismatch_program (I : impl Z) :
  fails I (start 3 (fun i => []) (fun i => comm_Init (allreduce_of (if Nat.eqb i 1 then OpSum else OpMax) CDouble (Z.of_nat i) (fun _ => Ret Z)))).
Proof.
  destruct (after_init I 3 (fun i => []) (fun i => allreduce_of (if Nat.eqb i 1 then OpSum else OpMax) CDouble (Z.of_nat i) (fun _ => Ret Z)))
    as (s & Ld & R & LN & Q & H).
  apply (leads_fails (start_reachable _ _ _ _) Ld).
  refine (@C69_collectives_mismatch Z I s 1 (fun i => DoAllreduce CDouble (Z.of_nat i) (if Nat.eqb i 1 then OpSum else OpMax)) (fun _ => Obj CDouble [])
     (fun _ => Obj CDouble []) (fun _ _ => Ret Z) (fun _ => Ret Z) 0 1 R _ _ _ _); try lia.
  - intros i r E. destruct (H i r E) as (_ & Pg & Rd & _). split; [exact Pg|]. split; [exact Rd|]. left. reflexivity.
  - cbn. intros (_ & X). discriminate.
Qed.
Theorem C69_scatter_mismatch_program (I : impl Z) :
  fails I (start 3 (fun i => [Obj CDouble [1; 2; 3; 4]%Z; Obj CDouble (if Nat.eqb i 2 then [0; 0]%Z else [0]%Z)])
    (fun i => comm_Init (comm_Scatter 0 1 0 (Ret Z)))).
Proof.
  destruct (after_init I 3 (fun i => [Obj CDouble [1; 2; 3; 4]%Z; Obj CDouble (if Nat.eqb i 2 then [0; 0]%Z else [0]%Z)]) (fun i => comm_Scatter 0 1 0 (Ret Z)))
    as (s & Ld & R & LN & Q & H).
  apply (leads_fails (start_reachable _ _ _ _) Ld).
  refine (@C69_collectives_mismatch Z I s 1 (fun i => DoScatter 0 1 0) (fun _ => Obj CDouble [1; 2; 3; 4]%Z)
     (fun i => Obj CDouble (if Nat.eqb i 2 then [0; 0]%Z else [0]%Z)) (fun _ _ => Ret Z) (fun _ => Ret Z) 0 2 R _ _ _ _); try lia.
  - intros i r E. destruct (H i r E) as (_ & Pg & Rd & _ & _ & _ & O & W). split; [exact Pg|]. split; [exact Rd|].
    split; [split; [apply O|apply W]|]. split; [split; [apply O|apply W]|]. split; [left; reflexivity|]. split; [left; reflexivity|].
    split; cbn; [lia|]. destruct (Nat.eqb i 2); cbn; lia.
  - cbn. intros (_ & _ & _ & X). discriminate.
Qed.
