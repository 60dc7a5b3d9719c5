(** * MpiModel: the message-passing machine and the [monolish::mpi::comm] wrappers that run on it.

    The MPI library itself is not in the repository; what it guarantees is the semantics below (written from
    the MPI standard: message matching per (communicator, source, destination, tag) in posting order,
    buffers that belong to the library from the start of a non-blocking call until the call that waits for
    it, type and size matching, truncation is an error, collectives entered by every rank).  Everything
    after "wrappers" models the functions of src/mpi, one by one.

    Simplifications: no wildcard sources or tags and no negative ranks or tags; every communicator contains
    all ranks in the same order; a collective completes on all ranks in one step, once all ranks have
    entered it (no rank can observe an intermediate state, it is blocked inside the call); strings, logging
    and MPI error codes are dropped. *)
From Coq Require Import List Arith Bool Lia.
From Verif Require Import Base MpiMap.
Import ListNotations.
Set Implicit Arguments.

(** ** Data *)

(** C++ element types; [CStdVec] stands for a [std::vector<T>] object handed to a template parameter [T] *)
Inductive cty := CDouble | CFloat | CInt | CSize | CStdVec.
(** MPI datatypes the wrappers use *)
Inductive mty := MDouble | MFloat | MInt | MSize.
(** MPI_SUM, MPI_PROD, MPI_MAX, MPI_MIN *)
Inductive mop := OpSum | OpProd | OpMax | OpMin.

(** the outcome of internal::mpi::get_type: a datatype, or [std::exit(-1)] (None);
    src/internal/mpi/mpi_util.hpp:7-24 *)
Definition get_type (t : cty) : option mty :=
  match t with
  | CDouble => Some MDouble
  | CFloat => Some MFloat
  | CInt => Some MInt
  | CSize => Some MSize
  | CStdVec => None
  end.

Section Machine.
Variable V : Type.

(** a scalar variable, a std::vector or a monolish::vector in the memory of one rank; element type and
    elements *)
Record obj := Obj { o_ty : cty; o_dat : list V }.

(** the collective operations, with the arguments one rank passes: buffer, count, datatype, ... *)
Inductive coll :=
| CBarrier
| CBcast (a cnt : nat) (t : mty) (root : nat)
| CAllreduce (a b cnt : nat) (t : mty) (op : mop)
| CGather (sa sc : nat) (st : mty) (ra rc : nat) (rt : mty) (root : nat)
| CScatter (sa sc : nat) (st : mty) (ra rc : nat) (rt : mty) (root : nat).

(** the private state of the [comm] singleton and of the library on one rank:
    include/monolish/mpi/monolish_mpi_core.hpp:22-31 ([my_comm], [requests]) *)
Record priv := Priv {
  p_rank : nat;            (* what MPI_Comm_rank reports *)
  p_size : nat;            (* what MPI_Comm_size reports *)
  p_init : bool;           (* MPI_Init has been called *)
  p_comm : nat;            (* comm::my_comm, 0 = null, 1 = MPI_COMM_WORLD *)
  p_reqs : list nat        (* comm::requests *)
}.

(** programs of one rank: a tree of atomic actions, the continuation chooses on what the action returned *)
Inductive prog :=
| Ret
| Crash                                                     (* undefined behaviour or std::exit *)
| Loc (f : priv -> priv) (k : priv -> prog)                 (* private state; the old one goes to [k] *)
| Alloc (o : obj) (k : nat -> prog)
| Free (a : nat) (k : prog)
| Read (a : nat) (k : obj -> prog)
| Write (a : nat) (d : list V) (k : prog)
| Isend (c a cnt : nat) (t : mty) (dst tag : nat) (k : nat -> prog)
| Irecv (c a cnt : nat) (t : mty) (src tag : nat) (k : nat -> prog)
| Wait (qs : list nat) (k : prog)
| Coll (c : nat) (x : coll) (k : prog).

(** a request the rank has started and not yet waited for *)
Record areq := Areq { a_buf : nat; a_cnt : nat; a_snd : bool; a_chan : chan; a_idx : nat; a_done : bool }.

(** one rank: memory (None = freed), requests by number (None = waited for), private state, program *)
Record rst := Rst { r_mem : list (option obj); r_act : list (option areq); r_priv : priv; r_prog : prog }.

(** one channel: the sends and receives posted so far, and how many of them have been matched.  [s_dat] is
    None until the library has read the send buffer. *)
Record sent := Sent { s_buf : nat; s_cnt : nat; s_ty : mty; s_req : nat; s_dat : option (list V) }.
Record posted := Posted { q_buf : nat; q_cnt : nat; q_ty : mty; q_req : nat }.
Record cst := Cst { c_snd : list sent; c_rcv : list posted; c_del : nat }.
Definition c0 : cst := Cst [] [] 0.

Record gst := Gst { g_ranks : list rst; g_chans : cmap cst }.

Definition ch_src (c : chan) : nat := snd (fst (fst c)).
Definition ch_dst (c : chan) : nat := snd (fst c).

(** what an observer of the network sees *)
Inductive event := EvSend (c : chan) (d : list V) | EvRecv (c : chan) (a : nat) (d : list V).

(** the agents: rank [i] performs its next local action; the library reads the [k]-th send buffer of a
    channel; the library matches the next send and receive of a channel; a collective takes place *)
Inductive label := LRank (i : nat) | LXmit (c : chan) (k : nat) | LMatch (c : chan) | LColl.

(** how the library may be implemented: whether a message of that many elements is buffered (the sender does
    not wait for the receiver), the order in which it combines the contributions to an Allreduce, and
    whether it tolerates equal send and receive buffers there *)
Record impl := Impl { i_eager : nat -> bool; i_red : mop -> list V -> V; i_alias : bool }.
Variable I : impl.

(** ** Buffers *)

Definition objat (m : list (option obj)) (a : nat) : option obj :=
  match nth_error m a with Some (Some o) => Some o | _ => None end.

Definition uses (a : nat) (q : option areq) : bool :=
  match q with Some x => Nat.eqb (a_buf x) a | None => false end.
Definition receives (a : nat) (q : option areq) : bool :=
  match q with Some x => Nat.eqb (a_buf x) a && negb (a_snd x) | None => false end.

(** the object may be read / overwritten by the rank: no receive / no request is outstanding on it *)
Definition readable (r : rst) (a : nat) : bool := negb (existsb (receives a) (r_act r)).
Definition writable (r : rst) (a : nat) : bool := negb (existsb (uses a) (r_act r)).

Definition prefix_write (d old : list V) : list V := d ++ skipn (length d) old.

Definition set_dat (m : list (option obj)) (a : nat) (d : list V) : list (option obj) :=
  match objat m a with Some o => upd m a (Some (Obj (o_ty o) d)) | None => m end.

Definition deliver (m : list (option obj)) (a : nat) (d : list V) : list (option obj) :=
  match objat m a with
  | Some o => upd m a (Some (Obj (o_ty o) (prefix_write d (o_dat o))))
  | None => m
  end.

Definition mark (l : list (option areq)) (q : nat) : list (option areq) :=
  match nth_error l q with
  | Some (Some x) => upd l q (Some (Areq (a_buf x) (a_cnt x) (a_snd x) (a_chan x) (a_idx x) true))
  | _ => l
  end.

Definition forget (l : list (option areq)) (qs : list nat) : list (option areq) :=
  fold_left (fun l q => upd l q None) qs l.

Definition is_done (l : list (option areq)) (q : nat) : bool :=
  match nth_error l q with Some (Some x) => a_done x | _ => false end.
Definition is_active (l : list (option areq)) (q : nat) : bool :=
  match nth_error l q with Some (Some _) => true | _ => false end.

(** ** One rank *)

Inductive post := PNone | PSend (c : chan) (e : sent) (d : list V) | PRecv (c : chan) (e : posted).
Inductive outcome := OBlocked | OErr | OGo (r : rst) (p : post).

Definition with_prog (r : rst) (p : prog) : rst := Rst (r_mem r) (r_act r) (r_priv r) p.
Definition with_mem (r : rst) (m : list (option obj)) (p : prog) : rst := Rst m (r_act r) (r_priv r) p.
Definition with_act (r : rst) (l : list (option areq)) (p : prog) : rst := Rst (r_mem r) l (r_priv r) p.

Fixpoint nodupb (l : list nat) : bool :=
  match l with [] => true | x :: l => negb (existsb (Nat.eqb x) l) && nodupb l end.

(** [ns]/[nr]: how many sends/receives have been posted on a channel *)
Definition rank_step (P i : nat) (ns nr : chan -> nat) (r : rst) : outcome :=
  match r_prog r with
  | Ret => OBlocked
  | Crash => OErr
  | Loc f k => OGo (Rst (r_mem r) (r_act r) (f (r_priv r)) (k (r_priv r))) PNone
  | Alloc o k => OGo (with_mem r (r_mem r ++ [Some o]) (k (length (r_mem r)))) PNone
  | Free a k =>
      match objat (r_mem r) a with
      | Some _ => if writable r a then OGo (with_mem r (upd (r_mem r) a None) k) PNone else OErr
      | None => OErr
      end
  | Read a k =>
      match objat (r_mem r) a with
      | Some o => if readable r a then OGo (with_prog r (k o)) PNone else OErr
      | None => OErr
      end
  | Write a d k =>
      match objat (r_mem r) a with
      | Some o => if writable r a then OGo (with_mem r (set_dat (r_mem r) a d) k) PNone else OErr
      | None => OErr
      end
  | Isend c a cnt t dst tag k =>
      match objat (r_mem r) a with
      | Some o =>
          if readable r a && Nat.leb cnt (length (o_dat o)) && Nat.ltb dst P && p_init (r_priv r)
             && negb (Nat.eqb c 0)
          then let ch := (c, i, dst, tag) in
               let q := length (r_act r) in
               OGo (with_act r (r_act r ++ [Some (Areq a cnt true ch (ns ch) false)]) (k q))
                   (PSend ch (Sent a cnt t q None) (firstn cnt (o_dat o)))
          else OErr
      | None => OErr
      end
  | Irecv c a cnt t src tag k =>
      match objat (r_mem r) a with
      | Some o =>
          if writable r a && Nat.leb cnt (length (o_dat o)) && Nat.ltb src P && p_init (r_priv r)
             && negb (Nat.eqb c 0)
          then let ch := (c, src, i, tag) in
               let q := length (r_act r) in
               OGo (with_act r (r_act r ++ [Some (Areq a cnt false ch (nr ch) false)]) (k q))
                   (PRecv ch (Posted a cnt t q))
          else OErr
      | None => OErr
      end
  | Wait qs k =>
      if nodupb qs && forallb (is_active (r_act r)) qs
      then if forallb (is_done (r_act r)) qs then OGo (with_act r (forget (r_act r) qs) k) PNone
           else OBlocked
      else OErr
  | Coll _ _ _ => OBlocked
  end.

(** ** Collectives *)

(** the buffer and count rank [i] of [P] contributes / receives into *)
Definition coll_in (P i : nat) (x : coll) : option (nat * nat) :=
  match x with
  | CBarrier => None
  | CBcast a cnt _ root => if Nat.eqb i root then Some (a, cnt) else None
  | CAllreduce a _ cnt _ _ => Some (a, cnt)
  | CGather sa sc _ _ _ _ _ => Some (sa, sc)
  | CScatter sa sc _ _ _ _ root => if Nat.eqb i root then Some (sa, P * sc) else None
  end.
Definition coll_out (P i : nat) (x : coll) : option (nat * nat) :=
  match x with
  | CBarrier => None
  | CBcast a cnt _ root => if Nat.eqb i root then None else Some (a, cnt)
  | CAllreduce _ b cnt _ _ => Some (b, cnt)
  | CGather _ _ _ ra rc _ root => if Nat.eqb i root then Some (ra, P * rc) else None
  | CScatter _ _ _ ra rc _ _ => Some (ra, rc)
  end.

Definition in_ok (r : rst) (x : option (nat * nat)) : bool :=
  match x with
  | None => true
  | Some (a, cnt) =>
      match objat (r_mem r) a with
      | Some o => readable r a && Nat.leb cnt (length (o_dat o))
      | None => false
      end
  end.
Definition out_ok (r : rst) (x : option (nat * nat)) : bool :=
  match x with
  | None => true
  | Some (a, cnt) =>
      match objat (r_mem r) a with
      | Some o => writable r a && Nat.leb cnt (length (o_dat o))
      | None => false
      end
  end.
Definition in_dat (r : rst) (x : option (nat * nat)) : list V :=
  match x with
  | None => []
  | Some (a, cnt) => match objat (r_mem r) a with Some o => firstn cnt (o_dat o) | None => [] end
  end.

Definition mty_eqb (a b : mty) : bool :=
  match a, b with
  | MDouble, MDouble | MFloat, MFloat | MInt, MInt | MSize, MSize => true
  | _, _ => false
  end.
Definition mop_eqb (a b : mop) : bool :=
  match a, b with
  | OpSum, OpSum | OpProd, OpProd | OpMax, OpMax | OpMin, OpMin => true
  | _, _ => false
  end.

(** equal buffers are tolerated only in an Allreduce and only if the implementation does *)
Definition alias_ok (P i : nat) (x : coll) : bool :=
  match coll_in P i x, coll_out P i x with
  | Some (a, _), Some (b, _) =>
      negb (Nat.eqb a b) || match x with CAllreduce _ _ _ _ _ => i_alias I | _ => false end
  | _, _ => true
  end.

(** the calls of the ranks fit together: same operation, same root, same datatypes and counts *)
Definition compat (P : nat) (x y : coll) : bool :=
  match x, y with
  | CBarrier, CBarrier => true
  | CBcast _ n t r, CBcast _ n' t' r' => Nat.eqb n n' && mty_eqb t t' && Nat.eqb r r' && Nat.ltb r P
  | CAllreduce _ _ n t o, CAllreduce _ _ n' t' o' => Nat.eqb n n' && mty_eqb t t' && mop_eqb o o'
  | CGather _ _ _ _ rc rt r, CGather _ sc' st' _ _ _ r' =>          (* [x]: the root's call *)
      Nat.eqb rc sc' && mty_eqb rt st' && Nat.eqb r r' && Nat.ltb r P
  | CScatter _ sc st _ _ _ r, CScatter _ _ _ _ rc' rt' r' =>
      Nat.eqb sc rc' && mty_eqb st rt' && Nat.eqb r r' && Nat.ltb r P
  | _, _ => false
  end.

Definition coll_root (x : coll) : nat :=
  match x with
  | CBarrier => 0 | CBcast _ _ _ r => r | CAllreduce _ _ _ _ _ => 0
  | CGather _ _ _ _ _ _ r => r | CScatter _ _ _ _ _ _ r => r
  end.

(** element-wise combination of the contributions *)
Definition reduce_all (op : mop) (cnt : nat) (ins : list (list V)) : list V :=
  map (fun j => i_red I op (flat_map (fun l => match nth_error l j with Some v => [v] | None => [] end) ins))
      (seq 0 cnt).

(** what rank [i] receives *)
Definition coll_res (x : coll) (ins : list (list V)) (i : nat) : list V :=
  match x with
  | CBarrier => []
  | CBcast _ _ _ root => nth root ins []
  | CAllreduce _ _ cnt _ op => reduce_all op cnt ins
  | CGather _ _ _ _ _ _ _ => concat ins
  | CScatter _ sc _ _ _ _ root => firstn sc (skipn (i * sc) (nth root ins []))
  end.

(** a rank out of range, never looked at *)
Definition dead : rst := Rst [] [] (Priv 0 0 false 0 []) Ret.
Definition rk (l : list rst) (i : nat) : rst := nth i l dead.

(** the collective a rank has entered: communicator, arguments, rest of the program *)
Definition in_coll (r : rst) : bool := match r_prog r with Coll _ _ _ => true | _ => false end.
Definition coll_comm (r : rst) : nat := match r_prog r with Coll c _ _ => c | _ => 0 end.
Definition coll_args (r : rst) : coll := match r_prog r with Coll _ x _ => x | _ => CBarrier end.
Definition coll_next (r : rst) : prog := match r_prog r with Coll _ _ k => k | p => p end.

Definition coll_after (r : rst) (out : option (nat * nat)) (d : list V) : rst :=
  match out with
  | None => with_prog r (coll_next r)
  | Some (b, _) => with_mem r (deliver (r_mem r) b d) (coll_next r)
  end.

(** the call of rank [i] is acceptable *)
Definition coll_ok (l : list rst) (x0 : coll) (i : nat) : bool :=
  let P := length l in
  let r := rk l i in
  compat P x0 (coll_args r)
  && Nat.eqb (coll_comm r) (coll_comm (rk l 0)) && negb (Nat.eqb (coll_comm r) 0)
  && p_init (r_priv r)
  && in_ok r (coll_in P i (coll_args r)) && out_ok r (coll_out P i (coll_args r))
  && alias_ok P i (coll_args r).

Definition coll_ins (l : list rst) : list (list V) :=
  map (fun j => in_dat (rk l j) (coll_in (length l) j (coll_args (rk l j)))) (seq 0 (length l)).

(** None: not every rank is in a collective; Some None: the calls do not fit together *)
Definition coll_step (l : list rst) : option (option (list rst)) :=
  let P := length l in
  if Nat.ltb 0 P && forallb in_coll l then
    let x0 := coll_args (rk l (coll_root (coll_args (rk l 0)))) in
    if forallb (coll_ok l x0) (seq 0 P)
    then Some (Some (map (fun i => coll_after (rk l i) (coll_out P i (coll_args (rk l i)))
                                              (coll_res x0 (coll_ins l) i)) (seq 0 P)))
    else Some None
  else None.

(** ** The machine *)

Definition upd_rank (s : gst) (i : nat) (r : rst) : list rst := upd (g_ranks s) i r.
Definition chan_of (s : gst) (c : chan) : cst := cget c0 (g_chans s) c.
Definition nsend (s : gst) (c : chan) : nat := length (c_snd (chan_of s c)).
Definition nrecv (s : gst) (c : chan) : nat := length (c_rcv (chan_of s c)).

Definition apply_post (m : cmap cst) (p : post) : cmap cst :=
  match p with
  | PNone => m
  | PSend c e _ => let x := cget c0 m c in cset m c (Cst (c_snd x ++ [e]) (c_rcv x) (c_del x))
  | PRecv c e => let x := cget c0 m c in cset m c (Cst (c_snd x) (c_rcv x ++ [e]) (c_del x))
  end.

Definition post_event (p : post) : list event :=
  match p with PSend c _ d => [EvSend c d] | _ => [] end.

Definition mark_rank (l : list rst) (i q : nat) : list rst :=
  match nth_error l i with
  | Some r => upd l i (Rst (r_mem r) (mark (r_act r) q) (r_priv r) (r_prog r))
  | None => l
  end.
Definition deliver_rank (l : list rst) (i a : nat) (d : list V) : list rst :=
  match nth_error l i with
  | Some r => upd l i (Rst (deliver (r_mem r) a d) (r_act r) (r_priv r) (r_prog r))
  | None => l
  end.

(** None: the agent cannot act; Some (_, None): the program is erroneous, anything may happen *)
Definition gstep (s : gst) (l : label) : option (list event * option gst) :=
  match l with
  | LRank i =>
      match nth_error (g_ranks s) i with
      | None => None
      | Some r =>
          match rank_step (length (g_ranks s)) i (nsend s) (nrecv s) r with
          | OBlocked => None
          | OErr => Some ([], None)
          | OGo r' p => Some (post_event p, Some (Gst (upd_rank s i r') (apply_post (g_chans s) p)))
          end
      end
  | LXmit c k =>
      let x := chan_of s c in
      match nth_error (c_snd x) k, nth_error (g_ranks s) (ch_src c) with
      | Some e, Some r =>
          match s_dat e with
          | Some _ => None
          | None =>
              match objat (r_mem r) (s_buf e) with
              | Some o =>
                  let e' := Sent (s_buf e) (s_cnt e) (s_ty e) (s_req e) (Some (firstn (s_cnt e) (o_dat o))) in
                  Some ([], Some (Gst (if i_eager I (s_cnt e) then mark_rank (g_ranks s) (ch_src c) (s_req e)
                                       else g_ranks s)
                                      (cset (g_chans s) c (Cst (upd (c_snd x) k e') (c_rcv x) (c_del x)))))
              | None => Some ([], None)
              end
          end
      | _, _ => None
      end
  | LMatch c =>
      let x := chan_of s c in
      match nth_error (c_snd x) (c_del x), nth_error (c_rcv x) (c_del x) with
      | Some e, Some p =>
          match s_dat e with
          | None => None
          | Some d =>
              if mty_eqb (s_ty e) (q_ty p) && Nat.leb (length d) (q_cnt p)
              then let l1 := deliver_rank (g_ranks s) (ch_dst c) (q_buf p) d in
                   let l2 := mark_rank l1 (ch_dst c) (q_req p) in
                   let l3 := if i_eager I (s_cnt e) then l2 else mark_rank l2 (ch_src c) (s_req e) in
                   Some ([EvRecv c (q_buf p) d],
                         Some (Gst l3 (cset (g_chans s) c (Cst (c_snd x) (c_rcv x) (S (c_del x))))))
              else Some ([], None)
          end
      | _, _ => None
      end
  | LColl =>
      match coll_step (g_ranks s) with
      | None => None
      | Some None => Some ([], None)
      | Some (Some rs) => Some ([], Some (Gst rs (g_chans s)))
      end
  end.

(** executions: any agent that can act may act next *)
Inductive exec : option gst -> list event -> option gst -> Prop :=
| exec_nil s : exec s [] s
| exec_cons s l e s1 tr s2 : gstep s l = Some (e, s1) -> exec s1 tr s2 -> exec (Some s) (e ++ tr) s2.

(** no agent can act *)
Definition final (s : option gst) : Prop :=
  match s with None => True | Some s => forall l, gstep s l = None end.

Definition finished (s : gst) : Prop := Forall (fun r => r_prog r = Ret) (g_ranks s).

Definition priv0 (P i : nat) : priv := Priv i P false 0 [].
Definition rank0 (P i : nat) (m : list obj) (p : prog) : rst := Rst (map Some m) [] (priv0 P i) p.
(** rank [i] starts with the objects [m i] and the program [p i] *)
Definition start (P : nat) (m : nat -> list obj) (p : nat -> prog) : gst :=
  Gst (map (fun i => rank0 P i (m i) (p i)) (seq 0 P)) cempty.

(** ** The wrappers (everything below is the code of src/mpi) *)

(** the members of [comm]: include/monolish/mpi/monolish_mpi_core.hpp:67 and the accesses to [requests] *)
Definition get_comm (k : nat -> prog) : prog := Loc (fun p => p) (fun p => k (p_comm p)).
Definition set_comm (c : nat) (k : prog) : prog :=
  Loc (fun p => Priv (p_rank p) (p_size p) (p_init p) c (p_reqs p)) (fun _ => k).
Definition get_reqs (k : list nat -> prog) : prog := Loc (fun p => p) (fun p => k (p_reqs p)).
Definition set_reqs (l : list nat) (k : prog) : prog :=
  Loc (fun p => Priv (p_rank p) (p_size p) (p_init p) (p_comm p) l) (fun _ => k).

(** MPI_Init may be called once: src/mpi/monolish_mpi.cpp:19-41 (both overloads) *)
Definition comm_Init (k : prog) : prog :=
  Loc (fun p => p) (fun p =>
  if p_init p then Crash else
  Loc (fun p => Priv (p_rank p) (p_size p) true (p_comm p) (p_reqs p)) (fun _ =>
  get_comm (fun c => if Nat.eqb c 0 then set_comm 1 k else k))).

(** src/mpi/monolish_mpi.cpp:43-54: [flag] is nonzero iff MPI_Init has been called *)
Definition comm_Initialized (k : bool -> prog) : prog :=
  Loc (fun p => p) (fun p =>
  let flag := if p_init p then 1 else 0 in
  k (if Nat.eqb flag 0 then true else false)).

(** src/mpi/monolish_mpi.cpp:67-91 *)
Definition comm_get_rank (k : nat -> prog) : prog :=
  get_comm (fun c => if Nat.eqb c 0 then Crash else
  Loc (fun p => p) (fun p => if p_init p then k (p_rank p) else Crash)).
Definition comm_get_size (k : nat -> prog) : prog :=
  get_comm (fun c => if Nat.eqb c 0 then Crash else
  Loc (fun p => p) (fun p => if p_init p then k (p_size p) else Crash)).

(** src/mpi/monolish_mpi.cpp:95-103 *)
Definition comm_Barrier (k : prog) : prog := get_comm (fun c => Coll c CBarrier k).

(** get_type, whose failure ends the process: src/internal/mpi/mpi_util.hpp:7-24 *)
Definition with_type (t : cty) (k : mty -> prog) : prog :=
  match get_type t with Some m => k m | None => Crash end.

(** MPI_Send / MPI_Recv: start and wait *)
Definition MPI_Send (c a cnt : nat) (t : mty) (dst tag : nat) (k : prog) : prog :=
  Isend c a cnt t dst tag (fun q => Wait [q] k).
Definition MPI_Recv (c a cnt : nat) (t : mty) (src tag : nat) (k : prog) : prog :=
  Irecv c a cnt t src tag (fun q => Wait [q] k).

(** a by-value parameter is a fresh object, destroyed when the function returns *)
Definition by_value (o : obj) (body : nat -> prog -> prog) (k : prog) : prog :=
  Alloc o (fun a => body a (Free a k)).

(** Send_core of a scalar (by value): src/mpi/send_recv.hpp:12-21, called by
    src/mpi/monolish_mpi.cpp:105-116 *)
Definition comm_Send_scalar (t : cty) (v : V) (dst tag : nat) (k : prog) : prog :=
  get_comm (fun c =>
  by_value (Obj t [v]) (fun a k =>
    with_type t (fun m => MPI_Send c a 1 m dst tag k)) k).

(** Send_core of a std::vector or a monolish::vector (by reference): src/mpi/send_recv.hpp:24-49, called by
    src/mpi/monolish_mpi.cpp:118-136.  [vec[0]] of an empty vector is undefined behaviour. *)
Definition comm_Send_vec (a dst tag : nat) (k : prog) : prog :=
  get_comm (fun c =>
  Read a (fun o =>
  if Nat.eqb (length (o_dat o)) 0 then Crash else
  with_type (o_ty o) (fun m => MPI_Send c a (length (o_dat o)) m dst tag k))).

(** Recv_core of a scalar, by value: src/mpi/send_recv.hpp:56-70, called by
    src/mpi/monolish_mpi.cpp:138-149 with the value of the variable [a] *)
Definition comm_Recv_scalar (a src tag : nat) (k : prog) : prog :=
  get_comm (fun c =>
  Read a (fun o =>
  by_value o (fun v k =>
    with_type (o_ty o) (fun m => MPI_Recv c v 1 m src tag k)) k)).

(** Recv of a std::vector: src/mpi/monolish_mpi.cpp:151-162.  The std::vector overload of Recv_core
    (src/mpi/send_recv.hpp:73-89) takes a fifth parameter without default, so the call with four arguments
    selects the by-value template of lines 56-70 with T = std::vector<...> *)
Definition comm_Recv_std (a src tag : nat) (k : prog) : prog :=
  get_comm (fun c =>
  Read a (fun o =>
  by_value o (fun v k =>
    with_type CStdVec (fun m => MPI_Recv c v 1 m src tag k)) k)).

(** Recv of a monolish::vector: src/mpi/send_recv.hpp:92-108, src/mpi/monolish_mpi.cpp:164-169;
    [vec[0]] of an empty vector is undefined behaviour *)
Definition comm_Recv_vec (a src tag : nat) (k : prog) : prog :=
  get_comm (fun c =>
  Read a (fun o =>
  if Nat.eqb (length (o_dat o)) 0 then Crash else
  with_type (o_ty o) (fun m => MPI_Recv c a (length (o_dat o)) m src tag k))).

(** [rq.push_back(request)], then the library stores the request in [rq.back()] *)
Definition push_req (start : (nat -> prog) -> prog) (k : prog) : prog :=
  get_reqs (fun rq => start (fun q => set_reqs (rq ++ [q]) k)).
(** the library stores the request in [rq.back()], without [push_back]: undefined on an empty vector,
    overwrites the last request otherwise *)
Definition back_req (start : (nat -> prog) -> prog) (k : prog) : prog :=
  get_reqs (fun rq =>
  match rq with
  | [] => Crash
  | _ => start (fun q => set_reqs (removelast rq ++ [q]) k)
  end).

(** src/mpi/isend_irecv.hpp:12-25, src/mpi/monolish_mpi.cpp:171-182 *)
Definition comm_Isend_scalar (t : cty) (v : V) (dst tag : nat) (k : prog) : prog :=
  get_comm (fun c =>
  by_value (Obj t [v]) (fun a k =>
    with_type t (fun m => push_req (Isend c a 1 m dst tag) k)) k).

(** src/mpi/isend_irecv.hpp:28-42, src/mpi/monolish_mpi.cpp:184-195 ([vec.data()[0]] reads element 0) *)
Definition comm_Isend_std (a dst tag : nat) (k : prog) : prog :=
  get_comm (fun c =>
  Read a (fun o =>
  if Nat.eqb (length (o_dat o)) 0 then Crash else
  with_type (o_ty o) (fun m => push_req (Isend c a (length (o_dat o)) m dst tag) k))).

(** src/mpi/isend_irecv.hpp:45-57, src/mpi/monolish_mpi.cpp:197-202 *)
Definition comm_Isend_mono (a dst tag : nat) (k : prog) : prog :=
  get_comm (fun c =>
  Read a (fun o =>
  if Nat.eqb (length (o_dat o)) 0 then Crash else
  with_type (o_ty o) (fun m => back_req (Isend c a (length (o_dat o)) m dst tag) k))).

(** src/mpi/isend_irecv.hpp:64-77, src/mpi/monolish_mpi.cpp:204-215 *)
Definition comm_Irecv_scalar (a src tag : nat) (k : prog) : prog :=
  get_comm (fun c =>
  Read a (fun o =>
  by_value o (fun v k =>
    with_type (o_ty o) (fun m => push_req (Irecv c v 1 m src tag) k)) k)).

(** std::vector and monolish::vector: src/mpi/isend_irecv.hpp:80-111, src/mpi/monolish_mpi.cpp:217-235 *)
Definition comm_Irecv_vec (a src tag : nat) (k : prog) : prog :=
  get_comm (fun c =>
  Read a (fun o =>
  if Nat.eqb (length (o_dat o)) 0 then Crash else
  with_type (o_ty o) (fun m => push_req (Irecv c a (length (o_dat o)) m src tag) k))).

(** src/mpi/isend_irecv.hpp:113-124, src/mpi/monolish_mpi.cpp:237 *)
Definition comm_Waitall (k : prog) : prog :=
  get_reqs (fun rq => Wait rq (set_reqs [] k)).

(** Allreduce_core: src/mpi/allreduce.hpp:6-16; the parameter is both send and receive buffer *)
Definition Allreduce_core (t : cty) (v : V) (op : mop) (k : V -> prog) : prog :=
  get_comm (fun c =>
  Alloc (Obj t [v]) (fun a =>
  with_type t (fun m =>
  Coll c (CAllreduce a a 1 m op)
  (Read a (fun o => Free a (match o_dat o with x :: _ => k x | [] => Crash end)))))).
(** src/mpi/monolish_mpi.cpp:239-302 *)
Definition comm_Allreduce (t : cty) (v : V) (k : V -> prog) : prog := Allreduce_core t v OpSum k.
Definition comm_Allreduce_sum (t : cty) (v : V) (k : V -> prog) : prog := Allreduce_core t v OpSum k.
Definition comm_Allreduce_prod (t : cty) (v : V) (k : V -> prog) : prog := Allreduce_core t v OpProd k.
Definition comm_Allreduce_max (t : cty) (v : V) (k : V -> prog) : prog := Allreduce_core t v OpMax k.
Definition comm_Allreduce_min (t : cty) (v : V) (k : V -> prog) : prog := Allreduce_core t v OpMin k.

(** Bcast_core of a scalar: src/mpi/Bcast.hpp:7-16, src/mpi/monolish_mpi.cpp:304-315; by reference *)
Definition comm_Bcast_scalar (a root : nat) (k : prog) : prog :=
  get_comm (fun c =>
  Read a (fun o =>
  with_type (o_ty o) (fun m => Coll c (CBcast a 1 m root) k))).
(** std::vector and monolish::vector: src/mpi/Bcast.hpp:19-44, src/mpi/monolish_mpi.cpp:317-335 *)
Definition comm_Bcast_vec (a root : nat) (k : prog) : prog :=
  get_comm (fun c =>
  Read a (fun o =>
  if Nat.eqb (length (o_dat o)) 0 then Crash else
  with_type (o_ty o) (fun m => Coll c (CBcast a (length (o_dat o)) m root) k))).

(** src/mpi/Gather.hpp:7-38, src/mpi/monolish_mpi.cpp:337-361: [recvvec] is a by-value parameter *)
Definition comm_Gather (sa ra root : nat) (k : prog) : prog :=
  get_comm (fun c =>
  Read sa (fun so => Read ra (fun ro =>
  if Nat.eqb (length (o_dat so)) 0 || Nat.eqb (length (o_dat ro)) 0 then Crash else
  by_value ro (fun v k =>
    with_type (o_ty so) (fun st => with_type (o_ty ro) (fun rt =>
    Coll c (CGather sa (length (o_dat so)) st v (length (o_dat ro)) rt root) k))) k))).

(** src/mpi/Scatter.hpp:7-38, src/mpi/monolish_mpi.cpp:363-387: [recvvec] is a by-value parameter *)
Definition comm_Scatter (sa ra root : nat) (k : prog) : prog :=
  get_comm (fun c =>
  Read sa (fun so => Read ra (fun ro =>
  if Nat.eqb (length (o_dat so)) 0 || Nat.eqb (length (o_dat ro)) 0 then Crash else
  by_value ro (fun v k =>
    with_type (o_ty so) (fun st => with_type (o_ty ro) (fun rt =>
    Coll c (CScatter sa (length (o_dat so)) st v (length (o_dat ro)) rt root) k))) k))).
End Machine.
