(** * Base: outcomes, C++ arrays and loops.

    Nothing here is monolish-specific; these are the meta-level building blocks
    the model files use to express C++ statements.

    An execution of a C++ member function ends in exactly one of
      - [Ok a]     normal return;
      - [Throw]    a C++ exception (std::runtime_error) leaves the function;
      - [Abort]    a failed [assert] / a call to [exit] (the default CMake build of
                   monolish sets no build type, so NDEBUG is off and asserts are live);
      - [UB]       undefined behaviour: an out-of-range array access, a division by
                   zero, a call through an empty function object;
      - [NoFuel]   only in models of [while]/recursive functions: the explicit fuel
                   was exhausted (theorems always prove this does not happen). *)
From Coq Require Export List Arith ZArith Lia Bool Permutation Sorted.
Export ListNotations.
Set Implicit Arguments.

Inductive res (A : Type) : Type :=
| Ok (a : A) | Throw | Abort | UB | NoFuel.
Arguments Ok {A} a.
Arguments Throw {A}.
Arguments Abort {A}.
Arguments UB {A}.
Arguments NoFuel {A}.

Definition bind {A B : Type} (m : res A) (k : A -> res B) : res B :=
  match m with
  | Ok a => k a | Throw => Throw | Abort => Abort | UB => UB | NoFuel => NoFuel
  end.

Notation "x <- m ;; k" := (bind m (fun x => k))
  (at level 61, m at next level, right associativity).
Notation "' p <- m ;; k" := (bind m (fun p => k))
  (at level 61, p pattern, m at next level, right associativity).
Notation "m ;;; k" := (bind m (fun _ => k))
  (at level 61, right associativity).

(** C [assert(b)] with NDEBUG off. *)
Definition assert_ (b : bool) : res unit := if b then Ok tt else Abort.
(** [if (!b) throw std::runtime_error(...)]. *)
Definition require_ (b : bool) : res unit := if b then Ok tt else Throw.

(** ** Arrays: a C array of length n is a list of length n. *)

(** [a[i]] as an rvalue; out of range is undefined behaviour. *)
Definition rd {A} (l : list A) (i : nat) : res A :=
  match nth_error l i with Some a => Ok a | None => UB end.

(** the list with position [i] replaced (total helper, used by [wr]). *)
Fixpoint upd {A} (l : list A) (i : nat) (v : A) : list A :=
  match l, i with
  | [], _ => []
  | _ :: t, 0 => v :: t
  | x :: t, S i' => x :: upd t i' v
  end.

(** [a[i] = v]; out of range is undefined behaviour. *)
Definition wr {A} (l : list A) (i : nat) (v : A) : res (list A) :=
  if i <? length l then Ok (upd l i v) else UB.

(** [std::vector::resize(n)] (new elements are value-initialised to [d]) *)
Definition vresize {A} (d : A) (l : list A) (n : nat) : list A :=
  firstn n l ++ repeat d (n - length l).

(** ** Loops *)

(** [n] iterations with counter lo, lo+1, ... *)
Fixpoint iter_ {S} (n lo : nat) (body : nat -> S -> res S) (s : S) : res S :=
  match n with
  | 0 => Ok s
  | Datatypes.S n' => s' <- body lo s ;; iter_ n' (Datatypes.S lo) body s'
  end.

(** [for (i = lo; i < hi; i++) body] where the body does not change [i] or [hi] *)
Definition for_ {S} (lo hi : nat) (body : nat -> S -> res S) (s : S) : res S :=
  iter_ (hi - lo) lo body s.

(** ** Lemmas *)

Lemma bind_ok {A B} (m : res A) (k : A -> res B) b :
  bind m k = Ok b -> exists a, m = Ok a /\ k a = Ok b.
Proof. destruct m; cbn; intros H; try discriminate. eauto. Qed.

Lemma rd_ok {A} (l : list A) i a : nth_error l i = Some a -> rd l i = Ok a.
Proof. unfold rd. intros ->. reflexivity. Qed.

Lemma rd_inv {A} (l : list A) i a : rd l i = Ok a -> nth_error l i = Some a.
Proof. unfold rd. destruct (nth_error l i); congruence. Qed.

Lemma rd_lt {A} (l : list A) i d : i < length l -> rd l i = Ok (nth i l d).
Proof. intros H. unfold rd. rewrite (nth_error_nth' l d H). reflexivity. Qed.

Lemma rd_nth {A} (l : list A) i a d : rd l i = Ok a -> nth i l d = a.
Proof. intros H%rd_inv. now apply nth_error_nth. Qed.

Lemma rd_len {A} (l : list A) i a : rd l i = Ok a -> i < length l.
Proof. intros H%rd_inv. apply nth_error_Some. congruence. Qed.

Lemma rd_ge {A} (l : list A) i : length l <= i -> rd l i = UB.
Proof. intros H. unfold rd. now rewrite (proj2 (nth_error_None l i) H). Qed.

Lemma wr_lt {A} (l : list A) i v : i < length l -> wr l i v = Ok (upd l i v).
Proof. intros H. unfold wr. now rewrite (proj2 (Nat.ltb_lt _ _) H). Qed.

Lemma wr_ge {A} (l : list A) i v : length l <= i -> wr l i v = UB.
Proof. intros H. unfold wr. now rewrite (proj2 (Nat.ltb_ge _ _) H). Qed.

Lemma wr_inv {A} (l : list A) i v l' : wr l i v = Ok l' -> i < length l /\ l' = upd l i v.
Proof. unfold wr. destruct (Nat.ltb_spec i (length l)); intros E; inversion E; auto. Qed.

Lemma upd_length {A} (l : list A) i v : length (upd l i v) = length l.
Proof. revert i; induction l as [|x l IH]; intros [|i]; cbn; auto. Qed.

Lemma nth_upd {A} (l : list A) i j v d :
  nth j (upd l i v) d = if (i =? j) && (i <? length l) then v else nth j l d.
Proof.
  revert i j; induction l as [|x l IH]; intros [|i] [|j]; cbn; auto.
  - rewrite andb_false_r. reflexivity.
  - rewrite IH. reflexivity.
Qed.

Lemma nth_upd_same {A} (l : list A) i v d : i < length l -> nth i (upd l i v) d = v.
Proof.
  intros H. rewrite nth_upd, Nat.eqb_refl, (proj2 (Nat.ltb_lt _ _) H). reflexivity.
Qed.

Lemma nth_upd_other {A} (l : list A) i j v d : i <> j -> nth j (upd l i v) d = nth j l d.
Proof. intros H. rewrite nth_upd, (proj2 (Nat.eqb_neq _ _) H). reflexivity. Qed.

Lemma nth_error_upd {A} (l : list A) i j v :
  nth_error (upd l i v) j =
  if (i =? j) && (i <? length l) then Some v else nth_error l j.
Proof.
  revert i j; induction l as [|x l IH]; intros [|i] [|j]; cbn; auto.
  - rewrite andb_false_r. reflexivity.
  - rewrite IH. reflexivity.
Qed.

Lemma upd_nth_id {A} (l : list A) i d : upd l i (nth i l d) = l.
Proof. revert i; induction l as [|x l IH]; intros [|i]; cbn; auto. now rewrite IH. Qed.

Lemma upd_upd {A} (l : list A) i v w : upd (upd l i v) i w = upd l i w.
Proof. revert i; induction l as [|x l IH]; intros [|i]; cbn; auto. now rewrite IH. Qed.

Lemma upd_comm {A} (l : list A) i j v w : i <> j -> upd (upd l i v) j w = upd (upd l j w) i v.
Proof.
  revert i j; induction l as [|x l IH]; intros [|i] [|j] H; cbn; auto; try lia.
  now rewrite IH by lia.
Qed.

Lemma upd_app_l {A} (l k : list A) i v : i < length l -> upd (l ++ k) i v = upd l i v ++ k.
Proof.
  revert i; induction l as [|x l IH]; intros [|i] H; cbn in *; try lia; auto.
  now rewrite IH by lia.
Qed.

Lemma upd_app_r {A} (l k : list A) i v :
  length l <= i -> upd (l ++ k) i v = l ++ upd k (i - length l) v.
Proof.
  revert i; induction l as [|x l IH]; intros i H; cbn in *.
  - now rewrite Nat.sub_0_r.
  - destruct i as [|i]; [lia|]. cbn. now rewrite IH by lia.
Qed.

Lemma upd_split {A} (l : list A) i v :
  i < length l -> upd l i v = firstn i l ++ v :: skipn (S i) l.
Proof.
  revert i; induction l as [|x l IH]; intros [|i] H; cbn in *; try lia; auto.
  now rewrite IH by lia.
Qed.

Lemma list_ext {A} (d : A) (l k : list A) :
  length l = length k -> (forall i, i < length l -> nth i l d = nth i k d) -> l = k.
Proof.
  revert k; induction l as [|x l IH]; intros [|y k] HL H; cbn in *; try lia; auto.
  f_equal.
  - apply (H 0). lia.
  - apply IH; [lia|]. intros i Hi. apply (H (S i)). lia.
Qed.

Lemma nth_error_ext {A} (l k : list A) :
  (forall i, nth_error l i = nth_error k i) -> l = k.
Proof.
  revert k; induction l as [|x l IH]; intros [|y k] H; auto.
  - specialize (H 0); discriminate.
  - specialize (H 0); discriminate.
  - f_equal.
    + specialize (H 0). cbn in H. congruence.
    + apply IH. intros i. apply (H (S i)).
Qed.

Lemma nth_firstn {A} (l : list A) n i d : i < n -> nth i (firstn n l) d = nth i l d.
Proof.
  revert n i; induction l as [|x l IH]; intros [|n] [|i] H; cbn; try lia; auto.
  apply IH. lia.
Qed.

Lemma nth_skipn {A} (l : list A) n i d : nth i (skipn n l) d = nth (n + i) l d.
Proof.
  revert n; induction l as [|x l IH]; intros [|n]; cbn; auto.
  destruct i; reflexivity.
Qed.

Lemma nth_repeat {A} (a d : A) n i : i < n -> nth i (repeat a n) d = a.
Proof. revert i; induction n as [|n IH]; intros [|i] H; cbn; try lia; auto. apply IH. lia. Qed.

Lemma vresize_length {A} (d : A) l n : length (vresize d l n) = n.
Proof. unfold vresize. rewrite app_length, firstn_length, repeat_length. lia. Qed.

Lemma nth_vresize {A} (d d' : A) l n i :
  i < n -> nth i (vresize d l n) d' = if i <? length l then nth i l d' else d.
Proof.
  intros H. unfold vresize.
  destruct (Nat.ltb_spec i (length l)).
  - rewrite app_nth1 by (rewrite firstn_length; lia). now apply nth_firstn.
  - rewrite app_nth2 by (rewrite firstn_length; lia).
    rewrite firstn_length. apply nth_repeat. lia.
Qed.

Lemma iter_app {S} n m lo (body : nat -> S -> res S) s :
  iter_ (n + m) lo body s = bind (iter_ n lo body s) (fun s' => iter_ m (lo + n) body s').
Proof.
  revert lo s; induction n as [|n IH]; intros lo s; cbn.
  - now rewrite Nat.add_0_r.
  - destruct (body lo s) as [s'| | | |]; cbn; auto.
    rewrite IH. now replace (Datatypes.S lo + n) with (lo + Datatypes.S n) by lia.
Qed.

Lemma for_empty {S} lo hi (body : nat -> S -> res S) s : hi <= lo -> for_ lo hi body s = Ok s.
Proof. intros H. unfold for_. now replace (hi - lo) with 0 by lia. Qed.

Lemma for_split {S} lo mid hi (body : nat -> S -> res S) s :
  lo <= mid <= hi ->
  for_ lo hi body s = bind (for_ lo mid body s) (fun s' => for_ mid hi body s').
Proof.
  intros H. unfold for_. replace (hi - lo) with ((mid - lo) + (hi - mid)) by lia.
  rewrite iter_app. now replace (lo + (mid - lo)) with mid by lia.
Qed.

Lemma for_last {S} lo hi (body : nat -> S -> res S) s :
  lo <= hi ->
  for_ lo (Datatypes.S hi) body s = bind (for_ lo hi body s) (fun s' => body hi s').
Proof.
  intros H. rewrite (@for_split S lo hi (Datatypes.S hi)) by lia.
  destruct (for_ lo hi body s) as [s'| | | |]; cbn [bind]; auto.
  unfold for_. replace (Datatypes.S hi - hi) with 1 by lia. cbn.
  destruct (body hi s'); reflexivity.
Qed.

(** The workhorse: a loop invariant gives the loop's result. *)
Lemma for_inv {S} (P : nat -> S -> Prop) lo hi (body : nat -> S -> res S) s :
  lo <= hi ->
  P lo s ->
  (forall i s, lo <= i < hi -> P i s -> exists s', body i s = Ok s' /\ P (Datatypes.S i) s') ->
  exists s', for_ lo hi body s = Ok s' /\ P hi s'.
Proof.
  intros Hle H0 Hstep. unfold for_.
  remember (hi - lo) as n eqn:En.
  assert (G : forall n lo' s, lo <= lo' -> lo' + n = hi -> P lo' s ->
             exists s', iter_ n lo' body s = Ok s' /\ P hi s').
  { clear - Hstep. induction n as [|n IH]; intros lo' s Hlo Heq HP; cbn.
    - exists s. split; auto. replace hi with lo' by lia. auto.
    - destruct (Hstep lo' s) as (s1 & E1 & H1); [lia|auto|].
      rewrite E1. cbn. apply IH; auto; lia. }
  apply G; auto; lia.
Qed.

(** Same, for a loop already known to be over [0..n). *)
Lemma for0_inv {S} (P : nat -> S -> Prop) n (body : nat -> S -> res S) s :
  P 0 s ->
  (forall i s, i < n -> P i s -> exists s', body i s = Ok s' /\ P (Datatypes.S i) s') ->
  exists s', for_ 0 n body s = Ok s' /\ P n s'.
Proof. intros H0 H. apply for_inv; auto; [lia|]. intros; apply H; auto; lia. Qed.

(** A loop whose body always succeeds purely is a fold. *)
Lemma for_pure {S} lo hi (f : nat -> S -> S) (body : nat -> S -> res S) s :
  (forall i s, lo <= i < hi -> body i s = Ok (f i s)) ->
  for_ lo hi body s = Ok (fold_left (fun s i => f i s) (seq lo (hi - lo)) s).
Proof.
  intros H. unfold for_.
  assert (G : forall n lo' s, lo <= lo' -> lo' + n <= hi \/ n = 0 ->
     iter_ n lo' body s = Ok (fold_left (fun s i => f i s) (seq lo' n) s)).
  { induction n as [|n IH]; intros lo' s0 Hl Hn; cbn; auto.
    rewrite H by lia. cbn. apply IH; lia. }
  apply G; lia.
Qed.

Lemma for_ext {S} lo hi (b1 b2 : nat -> S -> res S) s :
  (forall i s, lo <= i < hi -> b1 i s = b2 i s) -> for_ lo hi b1 s = for_ lo hi b2 s.
Proof.
  intros H. unfold for_.
  assert (G : forall n lo' s, lo <= lo' -> lo' + n <= hi \/ n = 0 ->
     iter_ n lo' b1 s = iter_ n lo' b2 s).
  { induction n as [|n IH]; intros lo' s0 Hl Hn; cbn; auto.
    rewrite H by lia. destruct (b2 lo' s0); cbn; auto. apply IH; lia. }
  apply G; lia.
Qed.

Lemma nth_map_seq {A} (f : nat -> A) a n i d : i < n -> nth i (map f (seq a n)) d = f (a + i).
Proof.
  intros H. rewrite nth_indep with (d' := f 0) by (rewrite map_length, seq_length; lia).
  rewrite map_nth, seq_nth by lia. reflexivity.
Qed.

Lemma list_as_map_seq {A} (l : list A) d : l = map (fun i => nth i l d) (seq 0 (length l)).
Proof.
  apply list_ext with (d := d).
  - now rewrite map_length, seq_length.
  - intros i Hi. now rewrite nth_map_seq by lia.
Qed.

Ltac dob H := let a := fresh "a" in let E := fresh "E" in
  apply bind_ok in H; destruct H as (a & E & H).
