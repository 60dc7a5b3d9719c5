(** * MpiLifeModel: the life cycle functions of monolish::mpi::comm in every build (model only, no proofs).

    A build is described by [b_mpi] (MONOLISH_USE_MPI) and [b_assert] (NDEBUG not defined, so that the expression in
    assert(..) is evaluated).  One process is modelled; what the MPI library does is taken from the MPI standard:
    MPI_Init and MPI_Finalize may each be called once, in this order; MPI_Initialized may be called at any time and
    tells whether MPI_Init has been called; everything else needs a running library and a communicator that is not
    null; an error ends the process (MPI_ERRORS_ARE_FATAL, the default error handler).  The logger calls are left out
    (see LogTable). *)
From Coq Require Import List Arith Bool.
Import ListNotations.

Record build := Build { b_mpi : bool; b_assert : bool }.

(** the MPI library of the process *)
Inductive lib := Idle | Running | Over.
(** the library and the member [my_comm] (include/monolish/mpi/monolish_mpi_core.hpp:27): 0 is the initial value,
    1 stands for MPI_COMM_WORLD, other numbers for communicators made by the program *)
Record life := Life { l_lib : lib; l_comm : nat }.

(** what a caller sees of one call *)
Inductive ans := Done | Truth (b : bool) | Number (n : nat) | Died | Undefined.

Inductive call := Init | InitArgs | Initialized | Finalize | GetRank | GetSize | GetComm | SetComm (c : nat) | Barrier.

Section Life.
Variable B : build.
(** rank and size of the process in each communicator *)
Variables (rank_in size_in : nat -> nat).

(** the MPI library: None is an error, which ends the process *)
Definition MPI_Init (s : lib) : option lib := match s with Idle => Some Running | _ => None end.
Definition MPI_Finalize (s : lib) : option lib := match s with Running => Some Over | _ => None end.
Definition MPI_Initialized (s : lib) : bool := match s with Idle => false | _ => true end.
Definition usable (s : life) : bool := match l_lib s with Running => negb (Nat.eqb (l_comm s) 0) | _ => false end.

(** [assert(e == MPI_SUCCESS)]: [e] is evaluated only if assertions are compiled in *)
Definition assert_call (e : lib -> option lib) (s : lib) : option lib := if b_assert B then e s else Some s.

(** src/mpi/monolish_mpi.cpp:12-17 *)
Definition set_comm (c : nat) (s : life) : life := Life (l_lib s) c.

(** src/mpi/monolish_mpi.cpp:19-29, 31-41 *)
Definition init (s : life) : ans * life :=
  if b_mpi B then
    match assert_call MPI_Init (l_lib s) with
    | None => (Died, s)
    | Some lib =>
        let s := Life lib (l_comm s) in
        (Done, if Nat.eqb (l_comm s) 0 then set_comm 1 s else s)
    end
  else (Done, s).

(** src/mpi/monolish_mpi.cpp:43-54: [int flag;] without an initial value *)
Definition initialized (s : life) : ans :=
  if b_mpi B then
    let flag := if b_assert B then Some (if MPI_Initialized (l_lib s) then 1 else 0) else None in
    match flag with Some f => Truth (if Nat.eqb f 0 then true else false) | None => Undefined end
  else Truth true.

(** src/mpi/monolish_mpi.cpp:56-63 *)
Definition finalize (s : life) : ans * life :=
  if b_mpi B then
    match assert_call MPI_Finalize (l_lib s) with None => (Died, s) | Some lib => (Done, Life lib (l_comm s)) end
  else (Done, s).

(** src/mpi/monolish_mpi.cpp:67-78, 80-91 *)
Definition get_rank (s : life) : ans :=
  if b_mpi B then if usable s then Number (rank_in (l_comm s)) else Died else Number 0.
Definition get_size (s : life) : ans :=
  if b_mpi B then if usable s then Number (size_in (l_comm s)) else Died else Number 1.
(** src/mpi/monolish_mpi.cpp:95-103; the wait for the other processes is in MpiModel *)
Definition barrier (s : life) : ans := if b_mpi B then if usable s then Done else Died else Done.

Definition step (s : life) (c : call) : ans * life :=
  match c with
  | Init | InitArgs => init s
  | Initialized => (initialized s, s)
  | Finalize => finalize s
  | GetRank => (get_rank s, s)
  | GetSize => (get_size s, s)
  | GetComm => (Number (l_comm s), s)       (* include/monolish/mpi/monolish_mpi_core.hpp:67 *)
  | SetComm c => (Done, set_comm c s)
  | Barrier => (barrier s, s)
  end.

(** the answers of a sequence of calls; a call that ends the process, or has no defined effect, is the last one *)
Fixpoint run (s : life) (h : list call) : list ans :=
  match h with
  | [] => []
  | c :: h =>
      let '(a, s) := step s c in
      match a with Died | Undefined => [a] | _ => a :: run s h end
  end.
End Life.

(** a process starts with the library idle and no communicator; [already] is a process whose program has called
    MPI_Init itself *)
Definition fresh : life := Life Idle 0.
Definition already : life := Life Running 0.
