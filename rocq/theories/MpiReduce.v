(** * MpiReduce: dot, nrm2, asum, nrm1 and sum in a build with MPI.

    Every rank reduces its own elements, the results are added up by comm::Allreduce, and the function
    returns the (post-processed) total on every rank.  Model and proof. *)
From Coq Require Import List Arith Bool Lia Ring.
From Verif Require Import Base Scalar Spec SumFacts Mem MemSpec ParProof VecModel VecSpec ReduceModel ReduceSpec ReduceProof.
From Verif Require Import MpiMap MpiModel MpiProof5 MpiSpec MpiProof6 MpiProof7.
Import ListNotations.
Set Implicit Arguments.

Section MpiReduceModel.
Context {F : Type} {SF : Scalar F}.

(** the part of a reduction before the MPI call: everything but the final expression *)
Definition local_part (red : reduction (F := F)) : reduction :=
  mkRed (r_assert red) (r_orig red) (r_n red) (r_term red) (r_ident red) (r_step red) (r_comb red) (fun v => v).

(** the rest of the function: [ans = comm.Allreduce(ans); return post(ans);], with [ans] the local result.
    src/blas/vector/dot.hpp:34-40, 70-76; nrm2.hpp:29-35, 61-67; asum.hpp:28-34, 60-66; nrm1.hpp:31-37,
    65-71; sum.hpp:31-37, 65-71 *)
Definition global_part (red : reduction (F := F)) (t : cty) (ans : F) (k : F -> prog F) : prog F :=
  comm_Allreduce t ans (fun v => k (r_post red v)).
End MpiReduceModel.

Section MpiReduceProof.
Context {F : Type} {SF : Scalar F}.
Hypothesis Hex : exact SF.
Let Hrt : ring_theory f0 f1 fadd fmul fsub fopp (@eq F) := Hex.
Add Ring MpiRedRing : Hrt.
Local Open Scope F_scope.

Lemma total_map_seq (f : nat -> F) n : total (map f (seq 0 n)) = sum_n n f.
Proof. apply total_seq. exact Hex. Qed.

Variable I : impl F.
Hypothesis Hred : forall l, l <> [] -> ReduceModel.combine fadd l (i_red I OpSum l).

Theorem global_reduce (s : gst F) c t (red : nat -> reduction) (ans loc : nat -> F) (k : nat -> F -> prog F) :
  reachable I s -> 0 < length (g_ranks s) -> supported t -> i_alias I = true ->
  (forall i r, nth_error (g_ranks s) i = Some r ->
     r_prog r = global_part (red i) t (ans i) (k i) /\ ready r c) ->
  (forall i, i < length (g_ranks s) -> ans i = loc i) ->
  exists s', leads I s s' /\ length (g_ranks s') = length (g_ranks s) /\
    (forall c', chan_of s' c' = chan_of s c') /\
    forall i r, nth_error (g_ranks s) i = Some r ->
      exists r', nth_error (g_ranks s') i = Some r' /\
        continues r (k i (r_post (red i) (sum_n (length (g_ranks s)) loc))) r'.
Proof.
  intros R L0 St Al H HL.
  destruct (@allreduce_rule F I s c t OpSum ans (fun i v => k i (r_post (red i) v)) R L0 St Al H) as (s' & Ld & Ln & Hc & Hs).
  exists s'. split; [exact Ld|]. split; [exact Ln|]. split; [exact Hc|]. intros i r Er. destruct (Hs i r Er) as (r' & Er' & C).
  exists r'. split; [exact Er'|].
  replace (sum_n (length (g_ranks s)) loc) with (i_red I OpSum (map ans (seq 0 (length (g_ranks s))))); [exact C|].
  rewrite (@combine_total F SF Hex _ _ (Hred (l := map ans (seq 0 (length (g_ranks s)))) ltac:(destruct (length (g_ranks s)); [lia|discriminate]))).
  rewrite <- total_map_seq. f_equal. apply map_ext_in. intros j Hj. apply in_seq in Hj. apply HL. lia.
Qed.
End MpiReduceProof.

(** ** The distributed vector: the elements of rank 0, then those of rank 1, ... *)
Section Distributed.
Context {F : Type} {SF : Scalar F}.
Hypothesis Hex : exact SF.
Let Hrt2 : ring_theory f0 f1 fadd fmul fsub fopp (@eq F) := Hex.
Add Ring MpiDistRing : Hrt2.
Local Open Scope F_scope.

(** the elements [a_len] .. of one argument, and of all ranks *)
Definition elems (m : mem F) (x : arg) : list F := map (el m x) (seq 0 (a_len x)).
Definition whole (P : nat) (M : nat -> mem F) (x : nat -> arg) : list F := flat_map (fun i => elems (M i) (x i)) (seq 0 P).

Lemma sum_app n k (f : nat -> F) : sum_n (n + k) f = sum_n n f + sum_n k (fun i => f (n + i)%nat).
Proof.
  induction k as [|k IH].
  - rewrite Nat.add_0_r. cbn [sum_n]. ring.
  - rewrite Nat.add_succ_r. cbn [sum_n]. rewrite IH. ring.
Qed.

Lemma elems_length m x : length (elems m x) = a_len x.
Proof. unfold elems. rewrite map_length, seq_length. reflexivity. Qed.

Lemma nth_elems m x i : (i < a_len x)%nat -> nth i (elems m x) 0 = el m x i.
Proof.
  intro H. unfold elems. rewrite nth_indep with (d' := el m x 0%nat) by (rewrite map_length, seq_length; exact H).
  rewrite map_nth, seq_nth by exact H. reflexivity.
Qed.

Lemma whole_S P M x : whole (S P) M x = whole P M x ++ elems (M P) (x P).
Proof. unfold whole. rewrite seq_S, flat_map_app. cbn. rewrite app_nil_r. reflexivity. Qed.

(** a sum over the distributed vectors is the sum of the sums over the ranks *)
Lemma sum_whole (g : F -> F -> F) P M (x y : nat -> arg) :
  (forall i, (i < P)%nat -> a_len (x i) = a_len (y i)) ->
  sum_n (length (whole P M x)) (fun j => g (nth j (whole P M x) 0) (nth j (whole P M y) 0)) =
  sum_n P (fun i => sum_n (a_len (x i)) (fun j => g (el (M i) (x i) j) (el (M i) (y i) j))).
Proof.
  induction P as [|P IH]; intro H; [reflexivity|].
  cbn [sum_n]. rewrite <- IH by (intros; apply H; lia). rewrite !whole_S, app_length, sum_app, elems_length.
  assert (LL : length (whole P M x) = length (whole P M y)).
  { clear IH. assert (H' : forall i, (i < P)%nat -> a_len (x i) = a_len (y i)) by (intros; apply H; lia). clear H.
    induction P as [|P IH]; [reflexivity|]. rewrite !whole_S, !app_length, !elems_length, IH by (intros; apply H'; lia).
    rewrite H' by lia. reflexivity. }
  f_equal; apply sum_ext; intros j Hj.
  - rewrite !app_nth1 by lia. reflexivity.
  - rewrite !app_nth2 by lia. replace (length (whole P M x) + j - length (whole P M x))%nat with j by lia.
    rewrite <- LL. replace (length (whole P M x) + j - length (whole P M x))%nat with j by lia.
    rewrite !nth_elems; auto. rewrite <- H by lia. exact Hj.
Qed.
End Distributed.
