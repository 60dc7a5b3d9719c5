(** * LogModel: the logger and the logging skeleton of library functions (model only, no proofs).

    Simplifications: the vector of start times, which is pushed and popped together with the vector of names, and
    the measured times in the output are left out; a line of the log is the kind of the function and the path
    printed (the names on the stack).  __FUNCTION__ (the macro monolish_func) is the plain name; the eight matmul
    and six matvec functions that append transposition flags to it are given the plain name too.  The level is
    fixed while library functions run (no library function changes it). *)
From Coq Require Import String.
From Verif Require Import Base.
Set Implicit Arguments.

Inductive kind := Solver | Func | Util.
(** the level from which functions of a kind are logged *)
Definition threshold (k : kind) : nat := match k with Solver => 1 | Func => 2 | Util => 3 end.
Definition enabled (L : nat) (k : kind) : bool := (threshold k <=? L)%nat.

(** include/monolish/common/monolish_logger.hpp:29-35 *)
Record logger := { level : nat; calls : list string; lines : list (kind * list string) }.

(** src/utils/system/logger_utils.cpp:7-37, 75-88, 123-136: solver_in, func_in, util_in *)
Definition log_in (k : kind) (name : string) (lg : logger) : logger :=
  if enabled (level lg) k then
    let c := calls lg ++ [name] in
    {| level := level lg; calls := c;
       lines := match k with Solver => lines lg ++ [(k, c)] | _ => lines lg end |}
  else lg.
(** src/utils/system/logger_utils.cpp:39-72, 90-120, 138-168: solver_out, func_out, util_out; pop_back (and
    times[size - 1]) on an empty vector is undefined *)
Definition log_out (k : kind) (lg : logger) : option logger :=
  if enabled (level lg) k then
    match calls lg with
    | [] => None
    | _ => Some {| level := level lg; calls := removelast (calls lg); lines := lines lg ++ [(k, calls lg)] |}
    end
  else Some lg.

(** ** skeletons: what is left of a function body (LogTable.v is generated from the sources) *)
Inductive cmd :=
| In (k : kind)              (* logger.<k>_in(monolish_func) *)
| Out (k : kind)             (* logger.<k>_out() *)
| Any                        (* statements and conditions: any calls of library functions *)
| If (a b : list cmd)
| Loop (a : list cmd)        (* for, while: any number of iterations *)
| Return | Throw | Leave.    (* return, throw, break or continue *)

(** a build configuration *)
Inductive config := Cpu | Mkl | Mpi | Gpu.
(** name, place in the sources, configurations in which the body is compiled to this skeleton *)
Record func := F { f_name : string; f_where : string; f_configs : list config; f_body : list cmd }.

(** ** executions.  The ghost records which calls are really active: [act] has the names of the enclosing calls that
    have announced themselves (of a logged kind), and it is restored to the caller's when a call returns, whatever
    the logger did; [want] are the lines an accurate log has. *)
Record ghost := { act : list string; want : list (kind * list string) }.
Definition ghost_in (L : nat) (k : kind) (name : string) (g : ghost) : ghost :=
  if enabled L k then
    let c := act g ++ [name] in
    {| act := c; want := match k with Solver => want g ++ [(k, c)] | _ => want g end |}
  else g.
Definition ghost_out (L : nat) (k : kind) (g : ghost) : ghost :=
  if enabled L k then {| act := removelast (act g); want := want g ++ [(k, act g)] |} else g.

(** how a piece of code ends: falls through, returns, throws, breaks/continues, or runs into undefined behaviour *)
Inductive outcome := Go | Ret | Thr | Lv | Crash.

Section Run.
  Variable T : func -> Prop.   (* the functions that can be called *)

  Inductive run : string -> list cmd -> ghost -> logger -> outcome -> ghost -> logger -> Prop :=
  | run_nil nm g lg : run nm [] g lg Go g lg
  | run_cons nm c cs g lg g1 lg1 o g2 lg2 :
      run1 nm c g lg Go g1 lg1 -> run nm cs g1 lg1 o g2 lg2 -> run nm (c :: cs) g lg o g2 lg2
  | run_stop nm c cs g lg o g1 lg1 :
      run1 nm c g lg o g1 lg1 -> o <> Go -> run nm (c :: cs) g lg o g1 lg1
  with run1 : string -> cmd -> ghost -> logger -> outcome -> ghost -> logger -> Prop :=
  | r_in nm k g lg : run1 nm (In k) g lg Go (ghost_in (level lg) k nm g) (log_in k nm lg)
  | r_out nm k g lg lg' : log_out k lg = Some lg' -> run1 nm (Out k) g lg Go (ghost_out (level lg) k g) lg'
  | r_out_ub nm k g lg : log_out k lg = None -> run1 nm (Out k) g lg Crash g lg
  | r_any nm g lg o g' lg' : some_calls g lg o g' lg' -> run1 nm Any g lg o g' lg'
  | r_then nm a b g lg o g' lg' : run nm a g lg o g' lg' -> run1 nm (If a b) g lg o g' lg'
  | r_else nm a b g lg o g' lg' : run nm b g lg o g' lg' -> run1 nm (If a b) g lg o g' lg'
  | r_loop_end nm a g lg : run1 nm (Loop a) g lg Go g lg
  | r_loop_step nm a g lg o1 g1 lg1 o g2 lg2 :
      run nm a g lg o1 g1 lg1 -> o1 = Go \/ o1 = Lv -> run1 nm (Loop a) g1 lg1 o g2 lg2 ->
      run1 nm (Loop a) g lg o g2 lg2
  | r_loop_stop nm a g lg o g1 lg1 :
      run nm a g lg o g1 lg1 -> o <> Go -> o <> Lv -> run1 nm (Loop a) g lg o g1 lg1
  | r_return nm g lg : run1 nm Return g lg Ret g lg
  | r_throw nm g lg : run1 nm Throw g lg Thr g lg
  | r_leave nm g lg : run1 nm Leave g lg Lv g lg
  (** a sequence of calls, the last of which may throw *)
  with some_calls : ghost -> logger -> outcome -> ghost -> logger -> Prop :=
  | calls_nil g lg : some_calls g lg Go g lg
  | calls_cons f g lg g1 lg1 o g2 lg2 :
      call f g lg Ret g1 lg1 -> some_calls g1 lg1 o g2 lg2 -> some_calls g lg o g2 lg2
  | calls_stop f g lg o g1 lg1 : call f g lg o g1 lg1 -> o <> Ret -> some_calls g lg o g1 lg1
  (** a call: the body, then (on a return) destructors of local objects, which may call functions *)
  with call : func -> ghost -> logger -> outcome -> ghost -> logger -> Prop :=
  | call_ret f g lg o g1 lg1 g2 lg2 : T f -> run (f_name f) (f_body f) g lg o g1 lg1 -> o = Go \/ o = Ret ->
      some_calls {| act := act g; want := want g1 |} lg1 Go g2 lg2 ->
      call f g lg Ret g2 lg2
  | call_other f g lg o g1 lg1 : T f -> run (f_name f) (f_body f) g lg o g1 lg1 -> o = Thr \/ o = Crash ->
      call f g lg o {| act := act g; want := want g1 |} lg1.
End Run.
