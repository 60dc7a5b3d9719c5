(** * StreamModel: where the solvers print the residual history, and who owns the output stream (model only).

    include/monolish_solver.hpp: the members print_rhistory, rhistory_file, rhistory_stream of class solver, the
    setters, the destructor and the compiler-generated copy constructor and copy assignment (a user-declared
    destructor does not suppress them).  A solve prints a list of lines (C117); here only their destination counts.
    Histories are lists of operations on any number of solver objects.  None: undefined behaviour.
    A stream is the std::ofstream object; two streams opened on one file name are kept apart (what the operating
    system makes of two writers to one file is not modelled).  Every line ends in std::endl, so it is flushed. *)
From Coq Require Import String.
From Verif Require Import Base.
Set Implicit Arguments.
Local Open Scope string_scope.
Local Open Scope list_scope.
Local Open Scope nat_scope.

Section StreamModel.
Variable L : Type.                                        (* printed lines *)

(** an std::ofstream: the name it was opened with, whether opening succeeded, what was written, whether it still exists *)
Record stream := mkStream { st_name : string; st_ok : bool; st_lines : list L; st_live : bool }.
(** rhistory_stream (line 42): not initialised by the constructor (line 59), &std::cout, or a stream made by new *)
Inductive ptr := Uninit | Cout | File (k : nat).
(** monolish_solver.hpp:40-42 *)
Record sol := mkSol { so_flag : bool; so_file : string; so_ptr : ptr }.
Record world := mkWorld { w_cout : list L; w_streams : list stream; w_sols : list (option sol) }.
Definition start : world := mkWorld [] [] [].

Inductive op :=
| New                                                     (* solver s; it gets the next number *)
| SetPrint (i : nat) (flag : bool)                        (* set_print_rhistory(flag) *)
| SetFile (i : nat) (name : string) (ok : bool)           (* set_rhistory_filename(name); ok: the system can open that file *)
| Solve (i : nat) (ls : list L)                           (* a solve that has the lines ls to print *)
| Copy (i : nat)                                          (* solver t(s); t gets the next number *)
| Assign (i j : nat)                                      (* s_j = s_i *)
| Destroy (i : nat).

(** the empty name can never be opened *)
Definition opens (name : string) (ok : bool) : bool := ok && negb (name =? "")%string.
Definition getsol (w : world) (i : nat) : option sol := match nth_error (w_sols w) i with Some (Some s) => Some s | _ => None end.
Definition setsol (w : world) (i : nat) (s : option sol) : world := mkWorld (w_cout w) (w_streams w) (upd (w_sols w) i s).
Definition addsol (w : world) (s : sol) : world := mkWorld (w_cout w) (w_streams w) (w_sols w ++ [Some s]).

(** lines 116-119; an earlier stream is forgotten, not deleted *)
Definition set_print (w : world) (i : nat) (flag : bool) (s : sol) : world := setsol w i (Some (mkSol flag (so_file s) Cout)).
(** lines 125-133; when opening fails the function throws after both members have been set *)
Definition set_file (w : world) (i : nat) (name : string) (ok : bool) (s : sol) : world :=
  let w := setsol w i (Some (mkSol (so_flag s) name (File (length (w_streams w))))) in
  mkWorld (w_cout w) (w_streams w ++ [mkStream name (opens name ok) [] true]) (w_sols w).
Definition throws (o : op) : bool := match o with SetFile _ name ok => negb (opens name ok) | _ => false end.
(** the print statements (cg.cpp:62-65 and the other solvers): a stream whose failbit is set ignores output *)
Definition print (w : world) (s : sol) (ls : list L) : option world :=
  if so_flag s then
    match so_ptr s with
    | Uninit => None
    | Cout => Some (mkWorld (w_cout w ++ ls) (w_streams w) (w_sols w))
    | File k => match nth_error (w_streams w) k with
                | Some (mkStream n okk old true) => Some (mkWorld (w_cout w) (upd (w_streams w) k (mkStream n okk (if okk then old ++ ls else old) true)) (w_sols w))
                | _ => None
                end
    end
  else Some w.
(** the destructor, lines 64-68.  The uninitialised pointer is compared, not used: as long as the file name is empty the
    outcome of that comparison does not matter (with a name it would be deleted: undefined) *)
Definition destroy (w : world) (i : nat) (s : sol) : option world :=
  if (so_file s =? "")%string then Some (setsol w i None) else
  match so_ptr s with
  | Uninit => None
  | Cout => Some (setsol w i None)
  | File k => match nth_error (w_streams w) k with
              | Some (mkStream n okk old true) => Some (setsol (mkWorld (w_cout w) (upd (w_streams w) k (mkStream n okk old false)) (w_sols w)) i None)
              | _ => None
              end
  end.

Definition step (o : op) (w : world) : option world :=
  match o with
  | New => Some (addsol w (mkSol false "" Uninit))
  | SetPrint i flag => match getsol w i with Some s => Some (set_print w i flag s) | None => None end
  | SetFile i name ok => match getsol w i with Some s => Some (set_file w i name ok s) | None => None end
  | Solve i ls => match getsol w i with Some s => print w s ls | None => None end
  | Copy i => match getsol w i with Some s => Some (addsol w s) | None => None end
  | Assign i j => match getsol w i, getsol w j with Some s, Some _ => Some (setsol w j (Some s)) | _, _ => None end
  | Destroy i => match getsol w i with Some s => destroy w i s | None => None end
  end.
Fixpoint exec (h : list op) (w : world) : option world :=
  match h with [] => Some w | o :: h => match step o w with Some w => exec h w | None => None end end.
End StreamModel.
Arguments New {L}. Arguments SetPrint {L}. Arguments SetFile {L}. Arguments Copy {L}. Arguments Assign {L}. Arguments Destroy {L}.
Arguments start {L}.
