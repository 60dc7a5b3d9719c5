(** * LifeSpec: what C120 says about shared storage and views. *)
From Verif Require Import Base LifeModel.
Set Implicit Arguments.

Section LifeSpec.
Context {F : Type} (d : F).

(** what a call returns; None: undefined behaviour *)
Definition says (w : world (F:=F)) (e : op (F:=F)) : option (reply (F:=F)) := option_map snd (step d e w).
(** the operation e, called in w, leaves the storage of object i where it is: it neither destroys i, nor moves another into it, nor resizes it (except
    a tensor to less than get_alloc_nnz() elements), nor pushes onto it when it is full *)
Definition in_place (i : nat) (e : op (F:=F)) (w : world (F:=F)) : Prop :=
  match e with
  | Destroy j => j <> i
  | Move j _ => j <> i
  | Resize j n _ => j = i -> forall o, getobj w i = Some o -> ob_class o = Tens /\ n < ob_alloc o
  | Push j _ => j = i -> forall o, getobj w i = Some o -> ob_nnz o < ob_alloc o
  | _ => True
  end.
Fixpoint all_in_place (i : nat) (h : list (op (F:=F))) (w : world (F:=F)) : Prop :=
  match h with
  | [] => True
  | e :: h => in_place i e w /\ forall w' r, step d e w = Some (w', r) -> all_in_place i h w'
  end.
(** the worlds that programs reach *)
Definition reached (w : world (F:=F)) : Prop := exists h rs, exec d h start = Some (w, rs).
End LifeSpec.
