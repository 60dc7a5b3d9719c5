(** * SolverSpec: what the solver properties talk about (no solver code here). *)
From Verif Require Import Base Scalar Spec SolverModel.
Set Implicit Arguments.

Section SolverSpec.
Context {F : Type} {SF : Scalar F}.
Local Open Scope F_scope.

(** the Euclidean norm of (v 0, ..., v (n-1)) *)
Definition norm2 (n : nat) (v : nat -> F) : F := fsqrt (sum_n n (fun i => v i * v i)).
(** b - A x, A given by its n x n elements *)
Definition residual (n : nat) (A : nat -> nat -> F) (x b : list F) (i : nat) : F := fn b i - mv n A (fn x) i.

(** the matrix object is square of order n and its matvec multiplies by the matrix M *)
Definition represents (A : matif (F:=F)) (n : nat) (M : nat -> nat -> F) : Prop :=
  mi_row A = n /\ mi_col A = n /\
  forall x y, length x = n -> length y = n ->
    exists y', mi_vec A x y = Ok y' /\ length y' = n /\ forall i, (i < n)%nat -> fn y' i = mv n M (fn x) i.

(** the preconditioner can be created and applied to vectors of length n (nothing is assumed about
    what it computes) *)
Definition pre_ok (A : matif (F:=F)) (n : nat) (pre : precond (F:=F)) : Prop :=
  exists f, pre A = Ok f /\
    forall r z, length r = n -> length z = n -> exists z', f r z = Ok z' /\ length z' = n.

(** what the return code promises about final_iter and final_resid *)
Definition code_honest (c : cfg (F:=F)) (o : outcome (F:=F)) : Prop :=
  (o_code o = SUCCESS /\ fltb (o_resid o) (s_tol c) = true /\
     (1 <= o_iter o)%nat /\ (s_miniter c <= o_iter o <= s_maxiter c)%nat) \/
  (o_code o = RESIDUAL_NAN /\ fnan (o_resid o) = true /\ (1 <= o_iter o <= s_maxiter c)%nat) \/
  (o_code o = BREAKDOWN /\ (1 <= o_iter o <= s_maxiter c)%nat) \/
  (o_code o = MAXITER /\ o_iter o = s_maxiter c).

(** the same solver object after set_maxiter(m) *)
Definition with_maxiter (c : cfg (F:=F)) (m : nat) : cfg (F:=F) :=
  mkCfg (s_lib c) (s_tol c) (s_miniter c) m (s_method c) (s_omega c).
(** Stopping early is a prefix of running on: if the run with limit m stops for another reason than the
    limit, at iteration k, then every limit >= k gives the very same outcome and every smaller limit
    gives MAXITER. *)
Definition limit_only_cuts (solve : cfg (F:=F) -> res (outcome (F:=F))) (c : cfg (F:=F)) : Prop :=
  forall m o, solve (with_maxiter c m) = Ok o -> o_code o <> MAXITER ->
    (1 <= o_iter o <= m)%nat /\
    forall m', ((o_iter o <= m')%nat -> solve (with_maxiter c m') = Ok o) /\
               ((m' < o_iter o)%nat -> exists o', solve (with_maxiter c m') = Ok o' /\ o_code o' = MAXITER).

(** t solves the lower triangular system whose strict lower part is that of M and whose i-th diagonal
    entry is the inverse of D[i]: t[i] = (b[i] - sum_{j<i} M[i][j] t[j]) * D[i] *)
Definition solves_lower (n : nat) (M : nat -> nat -> F) (D b t : list F) : Prop :=
  forall i, (i < n)%nat -> fn t i = (fn b i - sum_n i (fun j => M i j * fn t j)) * fn D i.
(** t[i] = y[i] - (sum_{j>i} M[i][j] t[j]) * D[i] *)
Definition solves_upper (n : nat) (M : nat -> nat -> F) (D y t : list F) : Prop :=
  forall i, (i < n)%nat -> fn t i = fn y i - sum_n n (fun j => if i <? j then M i j * fn t j else 0) * fn D i.

(** A.diag(v) stores the diagonal of M *)
Definition has_diag (A : matif (F:=F)) (n : nat) (M : nat -> nat -> F) : Prop :=
  forall v, length v = n -> exists d, mi_diag A v = Ok d /\ length d = n /\ forall i, (i < n)%nat -> fn d i = M i i.

(** the columns of a row are stored in increasing order *)
Definition increasing (l : list (nat * F)) : Prop := StronglySorted lt (map fst l).

(** exact arithmetic in a field whose operator== and isnan are exact *)
Definition field_arith : Prop :=
  (forall a b : F, b <> 0 -> (a / b) * b = a) /\
  (forall a b : F, feqb a b = true <-> a = b) /\ (forall a : F, fnan a = false).
(** A symmetric, and both the dot product and v.Av vanish only for v = 0 (a symmetric positive
    definite matrix over the reals or the rationals is one) *)
Definition symmetric (n : nat) (M : nat -> nat -> F) : Prop :=
  forall i j, (i < n)%nat -> (j < n)%nat -> M i j = M j i.
Definition definite (n : nat) (M : nat -> nat -> F) : Prop :=
  forall v : nat -> F, (dotp n v v = 0 \/ dotp n v (mv n M v) = 0) -> forall i, (i < n)%nat -> v i = 0.
End SolverSpec.
