(** * ReduceModel: the scalar-valued vector functions sum, nrm1, asum, dot, nrm2, max, min (model only).

    OpenMP's [reduction(op : acc)] clause: the iterations are distributed over threads in any way; each
    thread has a private copy of [acc] that starts at the identity of the clause; at the end the original
    value of [acc] and the private copies are combined with [op], in any order and association (OpenMP
    5.0 section 2.19.5).  Host memory, no MKL, no MPI; loops only read shared memory. *)
From Verif Require Import Base Scalar Mem VecModel.
Set Implicit Arguments.

Section ReduceModel.
Context {F : Type} {SF : Scalar F}.
Notation mem := (mem F).

(** all ways to combine the values of [l] with [op] *)
Inductive combine (op : F -> F -> F) : list F -> F -> Prop :=
| comb_one a : combine op [a] a
| comb_op l l1 l2 a b : combine op l1 a -> combine op l2 b -> Permutation l (l1 ++ l2) -> combine op l (op a b).

(** a call: argument checks, original value of the accumulator, number of iterations, the value read by
    iteration i, identity, the statement [acc = step acc value], the combiner, the final expression *)
Record reduction := mkRed {
  r_assert : bool; r_orig : mem -> res F; r_n : nat; r_term : mem -> nat -> res F;
  r_ident : F; r_step : F -> F -> F; r_comb : F -> F -> F; r_post : F -> F }.

(** the private copy of a thread after its iterations *)
Fixpoint thread_acc (k : reduction) (m : mem) (its : list nat) (acc : F) : res F :=
  match its with
  | [] => Ok acc
  | i :: its' => v <- r_term k m i ;; thread_acc k m its' (r_step k acc v)
  end.

(** [v] is a possible return value *)
Definition red_val (k : reduction) (m : mem) (v : F) : Prop :=
  r_assert k = true /\
  exists o d ps c, r_orig k m = Ok o /\ distribution (r_n k) d /\
    Forall2 (fun its p => thread_acc k m its (r_ident k) = Ok p) d ps /\
    combine (r_comb k) (o :: ps) c /\ v = r_post k c.
(** the call can go wrong *)
Definition red_fault (k : reduction) (m : mem) : Prop :=
  (~ exists o, r_orig k m = Ok o) \/
  exists d, distribution (r_n k) d /\ Exists (fun its => ~ exists p, thread_acc k m its (r_ident k) = Ok p) d.

Definition additive (chk : bool) (n : nat) (term : mem -> nat -> res F) (post : F -> F) : reduction :=
  mkRed chk (fun _ => Ok f0) n term f0 fadd fadd post.

(** src/blas/vector/sum.hpp:6-38 (double), 40-72 (float) *)
Definition r_sum (x : arg) : reduction :=
  additive true (a_len x) (fun m i => ld m (padd (a_ptr x) i)) (fun v => v).
(** src/blas/vector/nrm1.hpp:6-38, 40-72 *)
Definition r_nrm1 (x : arg) : reduction :=
  additive true (a_len x) (fun m i => v <- ld m (padd (a_ptr x) i) ;; Ok (fabs v)) (fun v => v).
(** src/blas/vector/asum.hpp:5-37: cblas_dasum is external; modelled as a sum of the absolute values in an
    unspecified grouping and order *)
Definition r_asum (x : arg) : reduction :=
  additive true (a_len x) (fun m i => v <- ld m (padd (a_ptr x) i) ;; Ok (fabs v)) (fun v => v).
(** src/blas/vector/dot.hpp:6-40, 42-77: cblas_ddot likewise *)
Definition r_dot (x y : arg) : reduction :=
  additive (same2 x y) (a_len x)
    (fun m i => a <- ld m (padd (a_ptr x) i) ;; b <- ld m (padd (a_ptr y) i) ;; Ok (fmul a b)) (fun v => v).
(** src/blas/vector/nrm2.hpp:6-36: sqrt(cblas_ddot(x, x)) *)
Definition r_nrm2 (x : arg) : reduction :=
  additive true (a_len x)
    (fun m i => a <- ld m (padd (a_ptr x) i) ;; b <- ld m (padd (a_ptr x) i) ;; Ok (fmul a b)) fsqrt.

(** vml::max(y): src/vml/vector/math_1_3op/vecmax.hpp:35-43, src/internal/math/double_math.cpp:432-460
    (float_math.cpp the same).  The original value is y[0]; [if (y[i] > max) max = y[i]]; [lowest] is the
    identity of reduction(max), the least value of the type.  N is not checked. *)
Definition r_max (lowest : F) (y : arg) : reduction :=
  mkRed true (fun m => ld m (a_ptr y)) (a_len y) (fun m i => ld m (padd (a_ptr y) i)) lowest fmax fmax (fun v => v).
(** vml::min(y): vecmin.hpp:35-43, double_math.cpp:513-541 *)
Definition r_min (greatest : F) (y : arg) : reduction :=
  mkRed true (fun m => ld m (a_ptr y)) (a_len y) (fun m i => ld m (padd (a_ptr y) i)) greatest fmin fmin (fun v => v).

End ReduceModel.
