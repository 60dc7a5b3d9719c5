(** * BindSpec: what C119 says about solvers and the preconditioner objects bound to them. *)
From Verif Require Import Base Scalar SolverModel BindModel.
Set Implicit Arguments.

Section BindSpec.
Context {F : Type} {SF : Scalar F}.

(** the preconditioner of a class for a matrix: made for that matrix and nothing else (SolverModel.v, C36, C50, C52) *)
Definition fresh (k : kind) (omega : F) (a : mat (F:=F)) : precond (F:=F) :=
  match k with
  | KJacobi => pc_jacobi
  | KSor => pc_sor omega (mt_pre a)
  | _ => pc_none
  end.
(** A.diag(v) does not depend on what v held before *)
Definition diag_total (a : mat (F:=F)) : Prop := forall v v', length v = length v' -> mi_diag (mt_if a) v = mi_diag (mt_if a) v'.
(** solver o creates and applies its preconditioner through the living object q, number p *)
Definition bound_to (w : world (F:=F)) (o : obj (F:=F)) (p : nat) (q : obj (F:=F)) : Prop :=
  ob_cre o = Some p /\ ob_app o = Some p /\ getobj w p = Some q /\ bindable (ob_kind q) = true.
(** what the caller of the last operation of a history gets; None: undefined behaviour or a failed assert *)
Definition reply_of {T} (m : res T) (k : T -> reply (F:=F)) : option (reply (F:=F)) :=
  match m with Ok v => Some (k v) | Throw => Some Threw | _ => None end.
Definition says (w : world (F:=F)) (e : op (F:=F)) : option (reply (F:=F)) := option_map snd (step e w).

(** the operations of h, run from w, leave the preconditioner data of object p and the matrix m alone: p is neither
    destroyed, nor created anew (directly or by a solver bound to it), and the matrix neither changed nor destroyed *)
Fixpoint quiet (p m : nat) (h : list (op (F:=F))) (w : world (F:=F)) : Prop :=
  match h with
  | [] => True
  | e :: h =>
      match e with
      | Destroy i => i <> p
      | Create i _ => i <> p
      | Solve i _ _ _ => forall o, getobj w i = Some o -> ob_cre o <> Some p
      | SetMat k _ => k <> m
      | DelMat k => k <> m
      | _ => True
      end /\ forall w' r, step e w = Some (w', r) -> quiet p m h w'
  end.
End BindSpec.
