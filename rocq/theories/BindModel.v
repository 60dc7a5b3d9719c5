(** * BindModel: solver objects, the preconditioner objects they are bound to, and the matrices (model only).

    src/equation/precond.cpp:9-17, 114-123: set_create_precond(p) and set_apply_precond(p) store std::bind(.., &p, ..), i.e.
    a pointer to p; every solve calls the stored create function with its matrix and then, in its loop, the stored apply
    function.  Jacobi and SOR keep what create_precond computed in their member precond (monolish_solver.hpp:233-246):
    the vector M and, for SOR, a pointer to the matrix.  Host memory.  A history is a list of operations on any number of
    objects; it has no meaning (None) after undefined behaviour or a failed assert, but goes on after an exception.
    ILU and IC (which throw on the host, C38) are left out, and so is copy assignment of solver objects. *)
From Verif Require Import Base Scalar CrsModel DenseModel SolverModel.
Set Implicit Arguments.

Section BindModel.
Context {F : Type} {SF : Scalar F}.
Local Open Scope F_scope.

(** a matrix object: what the solvers use of it, sor_kernel_precond and sor_kernel_lower for it *)
Record mat := mkMat { mt_if : matif (F:=F); mt_pre : list F -> list F -> list F -> res (list F);
                      mt_low : list F -> list F -> list F -> res (list F) }.
(** src/equation/kernel/sor_kernel.hpp *)
Definition crs_mat (A : crs F) : mat := mkMat (crs_if A) (sor_precond_crs A) (sor_lower_crs A).
Definition dense_mat (A : dense F) : mat := mkMat (dense_if A) (sor_precond_dense A) (sor_lower_dense A).

(** the classes of include/monolish_equation.hpp that are modelled *)
Inductive kind := KNone | KJacobi | KSor | KCg | KBicg.
(** precond.cpp instantiates the two setters for these classes only *)
Definition bindable (k : kind) : bool := match k with KCg | KBicg => false | _ => true end.
(** a solver object: its class, its parameters, final_iter and final_resid, precond.M, precond.A (not initialised at first),
    precond.create_precond and precond.apply_precond (None: the default lambdas, monolish_solver.hpp:248-253) *)
Record obj := mkObj { ob_kind : kind; ob_cfg : cfg (F:=F); ob_iter : nat; ob_resid : F; ob_M : list F; ob_A : option nat;
                      ob_cre : option nat; ob_app : option nat }.
Record world := mkWorld { w_objs : list (option obj); w_mats : list (option mat) }.
Definition start : world := mkWorld [] [].
Definition getobj (w : world) (i : nat) : option obj := match nth_error (w_objs w) i with Some (Some o) => Some o | _ => None end.
Definition getmat (w : world) (m : nat) : option mat := match nth_error (w_mats w) m with Some (Some a) => Some a | _ => None end.
Definition setobj (w : world) (i : nat) (o : option obj) : world := mkWorld (upd (w_objs w) i o) (w_mats w).
Definition set_pre (o : obj) (M : list F) (A : option nat) : obj :=
  mkObj (ob_kind o) (ob_cfg o) (ob_iter o) (ob_resid o) M A (ob_cre o) (ob_app o).

(** vector::resize(N): include/monolish/common/monolish_vector.hpp:446-465 *)
Definition resize (v : list F) (n : nat) : list F := firstn n v ++ repeat 0 (n - length v).

(** p.create_precond(A): none.cpp:11-20, jacobi.cpp:11-31, sor.cpp:13-38 *)
Definition create (w : world) (p m : nat) : res world :=
  match getobj w p, getmat w m with
  | Some o, Some a =>
      let A := mt_if a in
      match ob_kind o with
      | KNone => Ok w
      | KJacobi =>
          require_ (mi_row A =? mi_col A) ;;;
          M <- mi_diag A (resize (ob_M o) (mi_row A)) ;;
          M <- v_recip M M ;;
          Ok (setobj w p (Some (set_pre o M (ob_A o))))
      | KSor =>
          require_ (mi_row A =? mi_col A) ;;;
          M <- mi_diag A (resize (ob_M o) (mi_row A)) ;;
          M <- v_recip (v_scal (s_omega (ob_cfg o)) M) M ;;
          Ok (setobj w p (Some (set_pre o M (Some m))))
      | KCg | KBicg => Throw
      end
  | _, _ => UB
  end.
(** p.apply_precond(r, z): none.cpp:38-45, jacobi.cpp:51-60, sor.cpp:59-66 *)
Definition apply (w : world) (p : nat) : list F -> list F -> res (list F) :=
  match getobj w p with
  | Some o =>
      match ob_kind o with
      | KNone => fun r z => v_copy r z
      | KJacobi => fun r z => v_mul (ob_M o) r z
      | KSor => match ob_A o with
                | Some m => match getmat w m with Some a => fun r z => mt_pre a (ob_M o) z r | None => fun _ _ => UB end
                | None => fun _ _ => UB
                end
      | KCg | KBicg => fun _ _ => Throw
      end
  | None => fun _ _ => UB
  end.
(** this->precond.create_precond(A), this->precond.apply_precond(r, z) *)
Definition create_bound (w : world) (cre : option nat) (m : nat) : res world :=
  match cre with Some p => create w p m | None => Ok w end.
Definition apply_bound (w : world) (app : option nat) : list F -> list F -> res (list F) :=
  match app with Some p => apply w p | None => fun r z => v_copy r z end.
(** creating and applying as one solve call sees them: apply works on the objects as create left them *)
Definition bound_pre (w : world) (o : obj) (m : nat) : precond (F:=F) := fun _ =>
  w' <- create_bound w (ob_cre o) m ;; Ok (apply_bound w' (ob_app o)).

(** the solve functions (SolverModel.v) by class *)
Definition solve (k : kind) (c : cfg) (a : mat) (pre : precond) (x b : list F) (li : nat) (lr : F) : res outcome :=
  match k with
  | KNone => none_solve x li lr
  | KJacobi => jacobi_solve c (mt_if a) pre x b li lr
  | KSor => sor_solve c (mt_if a) (mt_low a) pre x b li lr
  | KCg => cg_solve c (mt_if a) pre x b li lr
  | KBicg => bicgstab_solve c (mt_if a) pre x b li lr
  end.
(** does a solve get as far as precond.create_precond(A)?  cg.cpp:19-36, 102-113, bicgstab.cpp:19-44, jacobi.cpp:88-110,
    sor.cpp:97-119 (C119_reaches proves that it is so) *)
Definition reaches (k : kind) (c : cfg (F:=F)) (a : mat) : bool :=
  (s_lib c =? 0) && (mi_row (mt_if a) =? mi_col (mt_if a)) &&
  match k with
  | KNone => false
  | KCg | KBicg => true
  | KJacobi | KSor => match mi_diag (mt_if a) (repeat 0 (mi_row (mt_if a))) with Ok _ => true | _ => false end
  end.

Inductive op :=
| New (k : kind) (c : cfg (F:=F))                         (* an object of that class with those parameters; it gets the next number *)
| Config (i : nat) (c : cfg (F:=F))                       (* set_tol, set_miniter, set_maxiter, set_omega, ... *)
| BindCreate (i p : nat) | BindApply (i p : nat)          (* s_i.set_create_precond(s_p), s_i.set_apply_precond(s_p) *)
| Solve (i m : nat) (x b : list F)                        (* s_i.solve(A_m, x, b) *)
| Create (p m : nat)                                      (* s_p.create_precond(A_m) *)
| Apply (p : nat) (r z : list F)                          (* s_p.apply_precond(r, z) *)
| Copy (i : nat)                                          (* an object copied from s_i; it gets the next number *)
| Destroy (i : nat)
| NewMat (a : mat) | SetMat (m : nat) (a : mat) | DelMat (m : nat).   (* a new matrix, new contents for a matrix, end of a matrix *)

(** what a call returns: nothing, the outcome of a solve, the new z of an apply, or an exception *)
Inductive reply := Done | Solved (o : outcome (F:=F)) | Applied (z : list F) | Threw.
(** a failed assert and undefined behaviour end the history *)
Definition finish {T} (m : res T) (w : world) (k : T -> world * reply) : option (world * reply) :=
  match m with Ok v => Some (k v) | Throw => Some (w, Threw) | _ => None end.

Definition step (e : op) (w : world) : option (world * reply) :=
  match e with
  | New k c => Some (mkWorld (w_objs w ++ [Some (mkObj k c 0 0 [] None None None)]) (w_mats w), Done)
  | Config i c => match getobj w i with
                  | Some o => Some (setobj w i (Some (mkObj (ob_kind o) c (ob_iter o) (ob_resid o) (ob_M o) (ob_A o) (ob_cre o) (ob_app o))), Done)
                  | None => None end
  | BindCreate i p => match getobj w i, getobj w p with
                      | Some o, Some q => if bindable (ob_kind q) then
                          Some (setobj w i (Some (mkObj (ob_kind o) (ob_cfg o) (ob_iter o) (ob_resid o) (ob_M o) (ob_A o) (Some p) (ob_app o))), Done) else None
                      | _, _ => None end
  | BindApply i p => match getobj w i, getobj w p with
                     | Some o, Some q => if bindable (ob_kind q) then
                         Some (setobj w i (Some (mkObj (ob_kind o) (ob_cfg o) (ob_iter o) (ob_resid o) (ob_M o) (ob_A o) (ob_cre o) (Some p))), Done) else None
                     | _, _ => None end
  | Solve i m x b =>
      match getobj w i, getmat w m with
      | Some o, Some a =>
          let w1 := if reaches (ob_kind o) (ob_cfg o) a then match create_bound w (ob_cre o) m with Ok w' => w' | _ => w end else w in
          finish (solve (ob_kind o) (ob_cfg o) a (bound_pre w o m) x b (ob_iter o) (ob_resid o)) w1 (fun out =>
            (match getobj w1 i with
             | Some o => setobj w1 i (Some (mkObj (ob_kind o) (ob_cfg o) (o_iter out) (o_resid out) (ob_M o) (ob_A o) (ob_cre o) (ob_app o)))
             | None => w1 end, Solved out))
      | _, _ => None
      end
  | Create p m => finish (create w p m) w (fun w' => (w', Done))
  | Apply p r z => finish (apply w p r z) w (fun z' => (w, Applied z'))
  | Copy i => match getobj w i with Some o => Some (mkWorld (w_objs w ++ [Some o]) (w_mats w), Done) | None => None end
  | Destroy i => match getobj w i with Some _ => Some (setobj w i None, Done) | None => None end
  | NewMat a => Some (mkWorld (w_objs w) (w_mats w ++ [Some a]), Done)
  | SetMat m a => match getmat w m with Some _ => Some (mkWorld (w_objs w) (upd (w_mats w) m (Some a)), Done) | None => None end
  | DelMat m => match getmat w m with Some _ => Some (mkWorld (w_objs w) (upd (w_mats w) m None), Done) | None => None end
  end.
Fixpoint exec (h : list op) (w : world) : option (world * list reply) :=
  match h with
  | [] => Some (w, [])
  | e :: h => match step e w with
              | Some (w, r) => match exec h w with Some (w, rs) => Some (w, r :: rs) | None => None end
              | None => None
              end
  end.
End BindModel.
