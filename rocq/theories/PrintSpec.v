(** * PrintSpec: vocabulary for the print_all properties. *)
From Coq Require Import ZArith NArith Ascii.
From Verif Require Import Base Scalar IoModel.
Import ListNotations.
Open Scope list_scope.
Open Scope nat_scope.
Set Implicit Arguments.

(** one line: the indices counted from 1, each followed by a blank, then the value *)
Definition line {F} (pv : F -> text) (e : list nat * F) : text :=
  concat (map (fun i => print_nat (i + 1) ++ [blank]) (fst e)) ++ pv (snd e) ++ [nl].
(** one line per entry *)
Definition printed {F} (pv : F -> text) (l : list (list nat * F)) : text := concat (map (line pv) l).

(** all positions of a tensor in row-major order *)
Fixpoint positions (shape : list nat) : list (list nat) :=
  match shape with [] => [[]] | n :: s => flat_map (fun i => map (cons i) (positions s)) (seq 0 n) end.

(** i + 1 fits a C++ int *)
Definition int_index (i : nat) : Prop := (Z.of_nat i < 2 ^ 31 - 1)%Z.
