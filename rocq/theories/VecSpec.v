(** * VecSpec: vocabulary for the vector properties (no model code). *)
From Verif Require Import Base Scalar Mem MemSpec VecModel.
Set Implicit Arguments.

Section VecSpec.
Context {F : Type} {SF : Scalar F}.

(** the argument's elements all exist *)
Definition arg_ok (m : mem F) (x : arg) : Prop := window m (a_ptr x) (a_len x).
(** element i of an argument *)
Definition el (m : mem F) (x : arg) (i : nat) : F := cell m (padd (a_ptr x) i).
(** [x] is [y] itself, or does not meet [y] *)
Definition same_or_apart (x y : arg) : Prop := alias_ok (a_ptr x) (a_ptr y) (a_len y).

(** The call [k] passes its checks and, under every distribution of the iterations over threads and
    every interleaving of the threads' accesses, without any invalid access, terminates with element
    [i] of [y] equal to [f i] and all other memory unchanged; the same as the one-thread execution. *)
Definition computes (k : kernel) (m : mem F) (y : arg) (f : nat -> F) : Prop :=
  exists m', kernel_result k m m' /\ kernel_seq k m = Ok m' /\ written m m' (a_ptr y) (a_len y) f.

(** operations on a sequence (the mathematical object behind a vector) *)
Inductive vop := Push (x : F) | Resize (n : nat) (x : F) | Assign (i : nat) (x : F).

(** [None] = the operation is not allowed (index out of range) *)
Definition seq_op (l : list F) (o : vop) : option (list F) :=
  match o with
  | Push x => Some (l ++ [x])
  | Resize n x => Some (firstn n l ++ repeat x (n - length l))
  | Assign i x => if i <? length l then Some (firstn i l ++ x :: skipn (S i) l) else None
  end.
Fixpoint seq_ops (l : list F) (os : list vop) : option (list F) :=
  match os with
  | [] => Some l
  | o :: os' => match seq_op l o with Some l' => seq_ops l' os' | None => None end
  end.

(** the same operations on the modelled object *)
Definition vec_op (mv : mem F * vec) (o : vop) : res (mem F * vec) :=
  let '(m, v) := mv in
  match o with
  | Push x => vec_push_back m v x
  | Resize n x => vec_resize m v n x
  | Assign i x => m' <- vec_set m v i x ;; Ok (m', v)
  end.
Fixpoint vec_ops (mv : mem F * vec) (os : list vop) : res (mem F * vec) :=
  match os with
  | [] => Ok mv
  | o :: os' => mv' <- vec_op mv o ;; vec_ops mv' os'
  end.

(** object [v] in memory [m] is a well-formed owning vector holding the sequence [l] *)
Definition vec_holds (m : mem F) (v : vec) (l : list F) : Prop :=
  v_own v = true /\ v_first v = 0 /\ v_buf v < length m /\
  v_alloc v = length (nth (v_buf v) m []) /\ v_nnz v = length l /\ v_nnz v <= v_alloc v /\
  forall i, i < length l -> vec_get m v i = Ok (nth i l f0).

(** every buffer that existed in [m], except [b], is unchanged in [m'] *)
Definition others_kept (m m' : mem F) (b : nat) : Prop :=
  length m <= length m' /\ forall c, c < length m -> c <> b -> nth c m' [] = nth c m [].

(** [l] with the [n] elements from position [s] replaced by [f 0], ..., [f (n-1)] *)
Definition splice (l : list F) (s n : nat) (f : nat -> F) : list F :=
  map (fun i => if (s <=? i) && (i <? s + n) then f (i - s) else nth i l f0) (seq 0 (length l)).

(** Under every schedule, the call [k] safely turns the contents of vector [v] into [l'] and leaves
    all other memory alone. *)
Definition makes (k : kernel) (m : mem F) (v : vec) (l' : list F) : Prop :=
  exists m', kernel_result k m m' /\ kernel_seq k m = Ok m' /\ vec_holds m' v l' /\
    others_kept m m' (v_buf v).

End VecSpec.
