(** * MpiSpec: vocabulary for the message-passing properties. *)
From Coq Require Import List Arith Bool.
From Verif Require Import Base MpiMap MpiModel MpiProof5.
Import ListNotations.
Set Implicit Arguments.

Section MpiSpec.
Variable V : Type.

(** MPI is initialised and the communicator is [c] *)
Definition ready (r : rst V) (c : nat) : Prop :=
  p_init (r_priv r) = true /\ p_comm (r_priv r) = c /\ c <> 0.

(** variable [a] of the rank is the object [o] and no communication is in progress on it *)
Definition holds (r : rst V) (a : nat) (o : obj V) : Prop :=
  objat (r_mem r) a = Some o /\ writable r a = true.

(** an element type the wrappers support *)
Definition supported (t : cty) : Prop := t = CDouble \/ t = CFloat \/ t = CInt \/ t = CSize.

(** no message is under way on the channel *)
Definition quiet (s : gst V) (c : chan) : Prop :=
  c_del (chan_of s c) = length (c_snd (chan_of s c)) /\ c_del (chan_of s c) = length (c_rcv (chan_of s c)).

(** the rank continues with [k]; its variables are unchanged *)
Definition continues (r : rst V) (k : prog V) (r' : rst V) : Prop :=
  r_prog r' = k /\ r_priv r' = r_priv r /\ (forall b, objat (r_mem r') b = objat (r_mem r) b) /\
  (forall b, writable r' b = writable r b).

(** the rank continues with [k]; the elements of variable [a] are now [d], every other variable is
    unchanged *)
Definition assigned (r : rst V) (a : nat) (d : list V) (k : prog V) (r' : rst V) : Prop :=
  r_prog r' = k /\ r_priv r' = r_priv r /\
  (forall b, objat (r_mem r') b =
     if Nat.eqb a b then option_map (fun o => Obj (o_ty o) d) (objat (r_mem r) b) else objat (r_mem r) b) /\
  (forall b, writable r' b = writable r b).

(** from [s] the program gets to [s'], whatever the schedule: every way the program can end from [s] is a
    way it can end from [s'], and conversely *)
Definition leads (I : impl V) (s s' : gst V) : Prop :=
  (exists tr, exec I (Some s) tr (Some s')) /\ forall o, outcome I s o <-> outcome I s' o.

(** the program is wrong under every schedule: whatever has happened so far, an error (undefined behaviour,
    an MPI error or termination of the process) is still ahead, and the program cannot end in any other way *)
Definition fails (I : impl V) (s : gst V) : Prop :=
  (forall tr s', exec I (Some s) tr (Some s') -> exists tr', exec I (Some s') tr' None) /\
  forall o, outcome I s o -> o = None.

(** the program ends in [n] under every schedule: no schedule runs for ever (see C66) and none ends otherwise *)
Definition ends (I : impl V) (s n : gst V) : Prop := forall o, outcome I s o <-> o = Some n.

(** send / receive several vectors, one after the other *)
Definition send_all (l : list nat) (dst tag : nat) (k : prog V) : prog V :=
  fold_right (fun a k => comm_Send_vec a dst tag k) k l.
Definition recv_all (l : list nat) (src tag : nat) (k : prog V) : prog V :=
  fold_right (fun b k => comm_Recv_vec b src tag k) k l.
End MpiSpec.
