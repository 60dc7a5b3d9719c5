(** * Mem: memory with several buffers, pointers, and OpenMP parallel loops.

    Vectors, Dense matrices, dense tensors and their views all hold a pointer into a buffer
    (a [shared_ptr<Float>] plus an offset), and the BLAS/VML kernels receive such pointers.
    Two arguments may therefore point into the same buffer ("aliasing").  This file gives
    the memory, the straight-line-with-loops language [prog] in which one iteration of an
    OpenMP loop is written, and two semantics for
<<
      #pragma omp parallel for
      for (i = 0; i < N; i++) body(i)
>>
    - [seq_for]: the iterations one after the other, in order;
    - [par_for]: the iterations are distributed over threads in any way (any number of
      threads, any assignment, any order within a thread) and the threads' individual loads
      and stores interleave arbitrarily (sequentially consistent memory; the theorems only
      concern race-free loops, for which C++ guarantees sequential consistency). *)
From Verif Require Import Base Scalar.
Set Implicit Arguments.

(** a pointer: buffer number and element offset *)
Definition ptr := (nat * nat)%type.
(** pointer arithmetic [p + i] *)
Definition padd (p : ptr) (i : nat) : ptr := (fst p, snd p + i).

Section Mem.
Context {F : Type} {SF : Scalar F}.

(** memory: buffer number [b] is the [b]-th list *)
Definition mem := list (list F).

(** [*p] *)
Definition ld (m : mem) (p : ptr) : res F := l <- rd m (fst p) ;; rd l (snd p).
(** [*p = v] *)
Definition st (m : mem) (p : ptr) (v : F) : res mem :=
  l <- rd m (fst p) ;; l' <- wr l (snd p) v ;; wr m (fst p) l'.

(** the element at [p] (for in-range [p]) *)
Definition cell (m : mem) (p : ptr) : F := nth (snd p) (nth (fst p) m []) f0.
(** [p] is in range *)
Definition valid (m : mem) (p : ptr) : Prop := snd p < length (nth (fst p) m []).
(** the [n] elements starting at [p] are in range *)
Definition window (m : mem) (p : ptr) (n : nat) : Prop := forall i, i < n -> valid m (padd p i).
(** same buffers with the same sizes *)
Definition same_shape (m m' : mem) : Prop := map (@length F) m = map (@length F) m'.

(** ** Programs: one loop iteration *)
Inductive prog (A : Type) : Type :=
| Ret (a : A)
| Ld (p : ptr) (k : F -> prog A)
| St (p : ptr) (v : F) (k : prog A)
| Bad.                                   (* undefined behaviour *)
Arguments Ret {A} a.
Arguments Ld {A} p k.
Arguments St {A} p v k.
Arguments Bad {A}.

Fixpoint pbind {A B} (c : prog A) (f : A -> prog B) : prog B :=
  match c with
  | Ret a => f a
  | Ld p k => Ld p (fun v => pbind (k v) f)
  | St p v k => St p v (pbind k f)
  | Bad => Bad
  end.

(** loop inside an iteration, with thread-local state *)
Fixpoint piter {S} (n lo : nat) (body : nat -> S -> prog S) (s : S) : prog S :=
  match n with
  | 0 => Ret s
  | Datatypes.S n' => pbind (body lo s) (fun s' => piter n' (Datatypes.S lo) body s')
  end.
Definition pfor {S} (lo hi : nat) (body : nat -> S -> prog S) (s : S) : prog S :=
  piter (hi - lo) lo body s.

(** a read of an array nobody writes in the loop (row_ptr, col_ind, ...) *)
Definition plift {A} (r : res A) : prog A := match r with Ok a => Ret a | _ => Bad end.

(** executing a program alone *)
Fixpoint run {A} (c : prog A) (m : mem) : res (mem * A) :=
  match c with
  | Ret a => Ok (m, a)
  | Ld p k => v <- ld m p ;; run (k v) m
  | St p v k => m' <- st m p v ;; run k m'
  | Bad => UB
  end.

(** ** Sequential execution of the loop *)
Definition seq_for (N : nat) (body : nat -> prog unit) (m : mem) : res mem :=
  for_ 0 N (fun i m => '(m', _) <- run (body i) m ;; Ok m') m.

(** ** Parallel execution *)

(** the iterations of one thread, one after the other *)
Fixpoint pseq (l : list (prog unit)) : prog unit :=
  match l with [] => Ret tt | c :: l' => pbind c (fun _ => pseq l') end.

(** one atomic step of some thread *)
Inductive pstep : mem * list (prog unit) -> mem * list (prog unit) -> Prop :=
| pstep_ld m l1 l2 p k v :
    ld m p = Ok v -> pstep (m, l1 ++ Ld p k :: l2) (m, l1 ++ k v :: l2)
| pstep_st m m' l1 l2 p v k :
    st m p v = Ok m' -> pstep (m, l1 ++ St p v k :: l2) (m', l1 ++ k :: l2).

Inductive psteps : nat -> mem * list (prog unit) -> mem * list (prog unit) -> Prop :=
| psteps_0 c : psteps 0 c c
| psteps_S n c c' c'' : pstep c c' -> psteps n c' c'' -> psteps (S n) c c''.

(** all threads have ended *)
Definition finished (l : list (prog unit)) : Prop := Forall (fun c => c = Ret tt) l.

(** a thread whose next action is undefined behaviour *)
Definition faulty (m : mem) (c : prog unit) : Prop :=
  match c with
  | Ret _ => False
  | Ld p _ => ~ exists v, ld m p = Ok v
  | St p v _ => ~ exists m', st m p v = Ok m'
  | Bad => True
  end.

(** a distribution of the iterations 0..N-1 over threads: one list of iterations per thread,
    in the order the thread executes them; every iteration occurs exactly once *)
Definition distribution (N : nat) (d : list (list nat)) : Prop := Permutation (concat d) (seq 0 N).

Definition threads (body : nat -> prog unit) (d : list (list nat)) : list (prog unit) :=
  map (fun its => pseq (map body its)) d.

(** "[m'] is a possible memory after the parallel loop", and "the loop can go wrong" *)
Definition par_for (N : nat) (body : nat -> prog unit) (m m' : mem) : Prop :=
  exists d n l, distribution N d /\ psteps n (m, threads body d) (m', l) /\ finished l.
Definition par_fault (N : nat) (body : nat -> prog unit) (m : mem) : Prop :=
  exists d n m' l, distribution N d /\ psteps n (m, threads body d) (m', l) /\ Exists (faulty m') l.

(** The loop is deterministic and safe, with result [m']: some execution completes, every
    completed execution ends with [m'], no execution of any distribution goes wrong, and no
    distribution has an unbounded execution. *)
Definition par_result (N : nat) (body : nat -> prog unit) (m m' : mem) : Prop :=
  par_for N body m m' /\
  (forall m1, par_for N body m m1 -> m1 = m') /\
  ~ par_fault N body m /\
  (exists B, forall d n c, distribution N d -> psteps n (m, threads body d) c -> n <= B).

End Mem.
Arguments mem F : clear implicits.
Arguments prog F A : clear implicits.
Arguments Ret {F A} a.
Arguments Ld {F A} p k.
Arguments St {F A} p v k.
Arguments Bad {F A}.

Notation "x <~ c ;; k" := (pbind c (fun x => k))
  (at level 61, c at next level, right associativity).
Notation "x <-- p ;; k" := (Ld p (fun x => k))
  (at level 61, p at next level, right associativity).
Notation "p <== v ;; k" := (St p v k)
  (at level 61, v at next level, right associativity).
