(** * GpuSpec: what a user expects of the host/device protocol.

    A storage is either only on the host, or it has a host copy and a device copy.
    Objects (vector, Dense, CRS, ...) are handles on storages; [move] makes two
    handles share a storage. No buffers, mapping tables, reference counts or flags. *)
From Verif Require Import Base GpuModel.
Set Implicit Arguments.

Section GpuSpec.
Variable V : Type.

(** contents of an object: its values, then its index arrays *)
Definition contents := list (list V).

Inductive storage :=
| OnHost (c : contents)
| OnDev (host dev : contents).

Record handle := Hd { h_kind : kind; h_sto : nat; h_own : bool }.
Record sworld := Sw { s_sto : list storage; s_obj : list (option handle) }.
Definition s0 : sworld := Sw [] [].

Definition on_dev (s : storage) : bool := match s with OnDev _ _ => true | _ => false end.
(** the copy computations work on *)
Definition current (s : storage) : contents := match s with OnHost c => c | OnDev _ d => d end.
Definition set_current (s : storage) (c : contents) : storage :=
  match s with OnHost _ => OnHost c | OnDev h _ => OnDev h c end.

Definition vals (c : contents) : list V := hd [] c.
Definition set_vals (c : contents) (v : list V) : contents :=
  match c with [] => [] | _ :: t => v :: t end.

Definition sget (s : sworld) (i : nat) : option (handle * storage) :=
  match nth_error (s_obj s) i with
  | Some (Some h) => match nth_error (s_sto s) (h_sto h) with
                     | Some p => Some (h, p) | None => None end
  | _ => None
  end.
Definition sput (s : sworld) (h : handle) (p : storage) : sworld :=
  Sw (upd (s_sto s) (h_sto h) p) (s_obj s).
Definition sset_obj (s : sworld) (i : nat) (h : option handle) : sworld :=
  Sw (s_sto s) (upd (s_obj s) i h).
Definition sadd (s : sworld) (k : kind) (p : storage) : sworld :=
  Sw (s_sto s ++ [p]) (s_obj s ++ [Some (Hd k (length (s_sto s)) true)]).

(** is the storage of handle number [i] also used by another live object? *)
Definition shared (s : sworld) (i k : nat) : bool :=
  existsb (fun j => negb (j =? i) &&
    match nth_error (s_obj s) j with Some (Some h) => h_sto h =? k | _ => false end)
    (seq 0 (length (s_obj s))).

Definition dense_like (k : kind) : bool := match k with KVec | KDense => true | _ => false end.

(** constructor arguments have the documented shape *)
Definition new_ok (k : kind) (rows : nat) (vs : list V) (idxs : list (list V)) : bool :=
  match k, idxs with
  | KVec, [] | KDense, [] => true
  | KCrs, [c; r] => (length c =? length vs) && (length r =? rows + 1)
  | KTcrs, _ => true
  | _, _ => false
  end.

(** an operand: a whole object, or a view of [len] values from [lo] *)
Definition win_ok (c : contents) (w : option (nat * nat)) : bool :=
  match w with None => true | Some (lo, len) => lo + len <=? length (vals c) end.
Definition win_read (c : contents) (w : option (nat * nat)) : contents :=
  match w with
  | None => c
  | Some (lo, len) => [firstn len (skipn lo (vals c))]
  end.
Definition win_bounds (c : contents) (w : option (nat * nat)) : nat * nat :=
  match w with None => (0, length (vals c)) | Some lw => lw end.
Definition win_write (c : contents) (w : option (nat * nat)) (f : nat -> V) : contents :=
  let '(lo, len) := win_bounds c w in
  set_vals c (firstn lo (vals c) ++ map f (seq 0 len) ++ skipn (lo + len) (vals c)).

Fixpoint opt_map {A B} (f : A -> option B) (l : list A) : option (list B) :=
  match l with
  | [] => Some []
  | a :: t => match f a, opt_map f t with Some b, Some bs => Some (b :: bs) | _, _ => None end
  end.

Definition sopd (s : sworld) (x : operand) : option (handle * storage * option (nat * nat)) :=
  match sget s (op_obj x) with
  | Some (h, p) => if win_ok (current p) (op_win x) then Some (h, p, op_win x) else None
  | None => None
  end.

(** The expected effect of a call. [None]: the call is outside the contract (a dead
    object, an index out of range, a resize of shared storage, ...).
    [Some Abort]: an assertion fails (operands on different sides or of different
    sizes). [OutThrew]: an exception, state unchanged. *)
Definition sstep (gpu : bool) (s : sworld) (c : op V) : option (res (sworld * out V)) :=
  match c with
  | ONew k rows vs idxs =>
      if new_ok k rows vs idxs then Some (Ok (sadd s k (OnHost (vs :: idxs)), OutU V)) else None
  | OCopy _ x =>
      match sget s x with
      | Some (h, p) => match h_kind h with
                       | KTcrs => None
                       | k => Some (Ok (sadd s k p, OutU V))
                       end
      | None => None
      end
  | OMove _ y x =>
      match sget s y, sget s x with
      | Some (hy, _), Some (hx, _) =>
          if dense_like (h_kind hy) && dense_like (h_kind hx)
          then Some (Ok (sset_obj s y (Some (Hd (h_kind hy) (h_sto hx) false)), OutU V))
          else None
      | _, _ => None
      end
  | OAssign _ y x =>
      match sget s y, sget s x with
      | Some (hy, py), Some (hx, px) =>
          if (length (vals (current py)) =? length (vals (current px)))
             && Bool.eqb (on_dev py) (on_dev px)
          then let s1 := sset_obj s y (Some (Hd (h_kind hy) (h_sto hy) true)) in
               Some (Ok (sput s1 hy (set_current py (set_vals (current py) (vals (current px)))),
                         OutU V))
          else Some Abort
      | _, _ => None
      end
  | OSend _ i =>
      match sget s i with
      | Some (h, p) =>
          Some (Ok (if gpu then sput s h (match p with
                                          | OnHost c => OnDev c c
                                          | OnDev hc _ => OnDev hc hc
                                          end) else s, OutU V))
      | None => None
      end
  | ORecv _ i =>
      match sget s i with
      | Some (h, p) => Some (Ok (sput s h (match p with OnDev _ d => OnHost d | _ => p end), OutU V))
      | None => None
      end
  | ONonfreeRecv _ i =>
      match sget s i with
      | Some (h, p) => Some (Ok (sput s h (match p with OnDev _ d => OnDev d d | _ => p end), OutU V))
      | None => None
      end
  | OFree _ i =>
      match sget s i with
      | Some (h, p) => Some (Ok (sput s h (match p with OnDev hc _ => OnHost hc | _ => p end), OutU V))
      | None => None
      end
  | ODestroy _ i =>
      match sget s i with
      | Some (h, p) =>
          let p' := if h_own h then match p with OnDev hc _ => OnHost hc | _ => p end else p in
          Some (Ok (sset_obj (sput s h p') i None, OutU V))
      | None => None
      end
  | OGet _ i k =>
      match sget s i with
      | Some (_, OnDev _ _) => Some (Ok (s, OutThrew V))
      | Some (_, OnHost c) => match nth_error (vals c) k with
                              | Some v => Some (Ok (s, OutV v)) | None => None end
      | None => None
      end
  | OSet i k v =>
      match sget s i with
      | Some (_, OnDev _ _) => Some (Ok (s, OutThrew V))
      | Some (h, OnHost c) =>
          if k <? length (vals c)
          then Some (Ok (sput s h (OnHost (set_vals c (upd (vals c) k v))), OutU V))
          else None
      | None => None
      end
  | OResize i N v =>
      match sget s i with
      | Some (h, p) =>
          match h_kind h, p with
          | KVec, OnDev _ _ => Some (Ok (s, OutThrew V))
          | KVec, OnHost c =>
              if h_own h then
                if shared s i (h_sto h) then None
                else Some (Ok (sput s h (OnHost (set_vals c (vresize v (vals c) N))), OutU V))
              else Some (Ok (s, OutThrew V))
          | KDense, OnHost c =>
              if h_own h && negb (shared s i (h_sto h))
              then Some (Ok (sput s h (OnHost (set_vals c (vresize v (vals c) N))), OutU V))
              else None
          | _, _ => None
          end
      | None => None
      end
  | OPush i v =>
      match sget s i with
      | Some (h, p) =>
          match h_kind h, p with
          | KVec, OnDev _ _ => Some (Ok (s, OutThrew V))
          | KVec, OnHost c =>
              if h_own h then
                if shared s i (h_sto h) then None
                else Some (Ok (sput s h (OnHost (set_vals c (vals c ++ [v]))), OutU V))
              else Some (Ok (s, OutThrew V))
          | _, _ => None
          end
      | None => None
      end
  | OMap y xs f =>
      match sopd s y, opt_map (sopd s) xs with
      | Some (h, p, w), Some os =>
          if forallb (fun o => Bool.eqb (on_dev (snd (fst o))) (on_dev p)) os
          then let ins := win_read (current p) w ::
                          map (fun o => win_read (current (snd (fst o))) (snd o)) os in
               Some (Ok (sput s h (set_current p (win_write (current p) w (f ins))), OutU V))
          else Some Abort
      | _, _ => None
      end
  | OReduce x xs g =>
      match sopd s x, opt_map (sopd s) xs with
      | Some (h, p, w), Some os =>
          if forallb (fun o => Bool.eqb (on_dev (snd (fst o))) (on_dev p)) os
          then Some (Ok (s, OutV (g (win_read (current p) w ::
                          map (fun o => win_read (current (snd (fst o))) (snd o)) os))))
          else Some Abort
      | _, _ => None
      end
  | OHostOnly i f =>
      match sget s i with
      | Some (h, OnHost c) =>
          Some (Ok (sput s h (OnHost (win_write c None (f (vals c)))), OutU V))
      | _ => None
      end
  end.

(** a whole program; [None] as soon as one call is outside the contract *)
Fixpoint srun (gpu : bool) (s : sworld) (p : list (op V)) : option (res (sworld * list (out V))) :=
  match p with
  | [] => Some (Ok (s, []))
  | c :: p' =>
      match sstep gpu s c with
      | Some (Ok (s1, o)) =>
          match srun gpu s1 p' with
          | Some (Ok (s2, os)) => Some (Ok (s2, o :: os))
          | r => r
          end
      | Some Abort => Some Abort
      | _ => None
      end
  end.

(** ** Discipline for transparency: a program never overwrites or drops device
    results it has not fetched: [send] and [device_free] are only called on objects
    whose two copies agree, and an object on the device is destroyed only if nobody
    else uses its storage. *)
Definition agree (p : storage) : Prop :=
  match p with OnHost _ => True | OnDev h d => h = d end.

Definition step_disciplined (s : sworld) (c : op V) : Prop :=
  match c with
  | OSend _ i | OFree _ i => forall h p, sget s i = Some (h, p) -> agree p
  | ODestroy _ i => forall h p, sget s i = Some (h, p) -> h_own h = true ->
                      shared s i (h_sto h) = false \/ agree p
  | _ => True
  end.

Fixpoint disciplined (s : sworld) (p : list (op V)) : Prop :=
  match p with
  | [] => True
  | c :: p' => step_disciplined s c /\
      match sstep true s c with
      | Some (Ok (s1, _)) => disciplined s1 p'
      | _ => True
      end
  end.

(** the copy of a storage the CPU build has: one copy, the current one *)
Definition host_only (p : storage) : storage := OnHost (current p).

(** ** Discipline for leak freedom: an object is sent only while some owning object
    of its storage is alive, and an owning object whose storage is on the device is
    not made an alias of something else. *)
Definition owned (s : sworld) (k : nat) : Prop :=
  exists i h, nth_error (s_obj s) i = Some (Some h) /\ h_sto h = k /\ h_own h = true.

Definition step_owned (s : sworld) (c : op V) : Prop :=
  match c with
  | OSend _ i => forall h p, sget s i = Some (h, p) -> owned s (h_sto h)
  | OMove _ y _ => forall h p, sget s y = Some (h, p) -> h_own h = false \/ on_dev p = false
  | _ => True
  end.

Fixpoint owned_run (gpu : bool) (s : sworld) (p : list (op V)) : Prop :=
  match p with
  | [] => True
  | c :: p' => step_owned s c /\
      match sstep gpu s c with
      | Some (Ok (s1, _)) => owned_run gpu s1 p'
      | _ => True
      end
  end.

(** ** What a client can see of an object: which side it is on and the contents of
    its copies ([regions]: the array sections the object consists of). *)
Definition sees (w : world V) (o : obj) (p : storage) : Prop :=
  status w o = on_dev p /\
  match p with
  | OnHost c => mapM (host_read w) (regions o) = Ok c
  | OnDev h d => mapM (host_read w) (regions o) = Ok h /\ mapM (dev_read w) (regions o) = Ok d
  end.
Definition observes (w : world V) (s : sworld) : Prop :=
  length (w_obj w) = length (s_obj s) /\
  forall i h p, sget s i = Some (h, p) ->
    exists o, get_obj w i = Ok o /\ o_kind o = h_kind h /\ o_own o = h_own h /\ sees w o p.

End GpuSpec.
