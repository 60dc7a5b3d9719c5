(** * StreamSpec: vocabulary for C118, in terms of the calls a program makes. *)
From Coq Require Import String.
From Verif Require Import Base StreamModel.
Set Implicit Arguments.
Local Open Scope list_scope.
Local Open Scope nat_scope.

Section StreamSpec.
Variable L : Type.
Notation op := (op L).

(** the objects a call needs *)
Definition needs (o : op) : list nat :=
  match o with New => [] | SetPrint i _ | SetFile i _ _ | Solve i _ | Copy i | Destroy i => [i] | Assign i j => [i; j] end.
Definition makes (o : op) : bool := match o with New | Copy _ => true | _ => false end.
(** number of objects made so far: objects are numbered 0, 1, 2, ... *)
Definition made (h : list op) : nat := length (filter makes h).
Definition exists_now (h : list op) (i : nat) : Prop := i < made h /\ ~ In (Destroy i) h.
(** a program uses only objects that exist *)
Definition proper (h : list op) : Prop := forall h1 o h2, h = h1 ++ o :: h2 -> forall i, In i (needs o) -> exists_now h1 i.
(** copies are made only from objects that are never told a file name *)
Definition copies_harmless (h : list op) : Prop :=
  forall i, In (Copy i) h \/ (exists j, In (Assign i j) h) -> forall name ok, ~ In (SetFile i name ok) h.
Definition no_copies (h : list op) : Prop := forall i j, ~ In (Copy i) h /\ ~ In (Assign i j) h.
(** number of streams opened so far (they are numbered 0, 1, 2, ...) *)
Definition is_file (o : op) : bool := match o with SetFile _ _ _ => true | _ => false end.
Definition opened (h : list op) : nat := length (filter is_file h).

(** the calls that concern the output of object i: set_print_rhistory and set_rhistory_filename *)
Definition sets (i : nat) (o : op) : bool :=
  match o with SetPrint k _ => k =? i | SetFile k _ _ => k =? i | _ => false end.
Definition untouched (i : nat) (h : list op) : Prop := forall o, In o h -> sets i o = false.
Definition prints (i : nat) (o : op) : bool := match o with SetPrint k _ => k =? i | _ => false end.
Definition flag_untouched (i : nat) (h : list op) : Prop := forall o, In o h -> prints i o = false.
(** the flag last given to set_print_rhistory of object i is f *)
Definition last_flag (i : nat) (h : list op) (f : bool) : Prop := exists h1 h2, h = h1 ++ SetPrint i f :: h2 /\ flag_untouched i h2.
(** the last setter called on object i was set_print_rhistory(f) *)
Definition last_was_print (i : nat) (h : list op) : Prop := exists h1 f h2, h = h1 ++ SetPrint i f :: h2 /\ untouched i h2.
(** the last setter called on object i was set_rhistory_filename(name); it opened stream number k *)
Definition last_was_file (i : nat) (h : list op) (k : nat) : Prop :=
  exists h1 name ok h2, h = h1 ++ SetFile i name ok :: h2 /\ untouched i h2 /\ k = opened h1.
(** the advisable order: on each object set_rhistory_filename is the last setter called, with a non-empty name *)
Definition advisable (h : list op) : Prop := forall h1 i name ok h2, h = h1 ++ SetFile i name ok :: h2 -> name <> ""%string /\ untouched i h2.
Definition all_destroyed (h : list op) : Prop := forall i, i < made h -> In (Destroy i) h.
End StreamSpec.
