(** * SolverModel: iterative solvers and preconditioners (model only).

    Vectors are lists.  The BLAS-1/VML calls the solvers make are written by their pointwise meaning
    (theorems C25, C44 prove that meaning for the kernels of VecModel.v under every schedule; the
    solvers' work vectors are distinct objects).  dot is a left-to-right sum (cblas ?dot is
    external), nrm2 its square root (src/blas/vector/nrm2.hpp:27-39).  Host memory, lib = 0 unless
    said otherwise; printing of the residual history is in HistModel.v (C117); [tol] has the vectors' scalar type. *)
From Verif Require Import Base Scalar CrsModel DenseModel.
Set Implicit Arguments.

Section SolverModel.
Context {F : Type} {SF : Scalar F}.
Local Open Scope F_scope.

(** ** vector operations *)
Definition zipw (g : F -> F -> F) (a b : list F) : list F :=
  map (fun i => g (nth i a f0) (nth i b f0)) (seq 0 (length a)).
Definition leneq (a b : list F) : bool := length a =? length b.

(** vml::sub / add / mul (a, b, y): sizes asserted *)
Definition v_sub (a b y : list F) : res (list F) := assert_ (leneq a b && leneq a y) ;;; Ok (zipw fsub a b).
Definition v_add (a b y : list F) : res (list F) := assert_ (leneq a b && leneq a y) ;;; Ok (zipw fadd a b).
Definition v_mul (a b y : list F) : res (list F) := assert_ (leneq a b && leneq a y) ;;; Ok (zipw fmul a b).
(** vml::reciprocal(a, y) *)
Definition v_recip (a y : list F) : res (list F) := assert_ (leneq a y) ;;; Ok (map (fun v => 1 / v) a).
(** blas::copy(x, y) *)
Definition v_copy (x y : list F) : res (list F) := assert_ (leneq x y) ;;; Ok x.
(** blas::scal(alpha, x) *)
Definition v_scal (alpha : F) (x : list F) : list F := map (fun v => alpha * v) x.
(** blas::axpy(alpha, x, y): y + alpha x *)
Definition v_axpy (alpha : F) (x y : list F) : res (list F) :=
  assert_ (leneq x y) ;;; Ok (zipw (fun a b => b + alpha * a) x y).
(** blas::xpay(alpha, x, y): x + alpha y *)
Definition v_xpay (alpha : F) (x y : list F) : res (list F) :=
  assert_ (leneq x y) ;;; Ok (zipw (fun a b => a + alpha * b) x y).
(** blas::axpyz(alpha, x, y, z): alpha x + y *)
Definition v_axpyz (alpha : F) (x y z : list F) : res (list F) :=
  assert_ (leneq x y && leneq x z) ;;; Ok (zipw (fun a b => alpha * a + b) x y).
(** blas::dot: src/blas/vector/dot.hpp:6-41 *)
Definition v_dot (x y : list F) : res F :=
  assert_ (leneq x y) ;;; Ok (fold_left (fun s i => s + nth i x f0 * nth i y f0) (seq 0 (length x)) 0).
(** blas::nrm2: src/blas/vector/nrm2.hpp:6-39 *)
Definition v_nrm2 (x : list F) : res F := s <- v_dot x x ;; Ok (fsqrt s).

(** ** the template parameter MATRIX: what the solvers use of it *)
Record matif := mkMatif {
  mi_row : nat; mi_col : nat;
  mi_vec : list F -> list F -> res (list F);      (* blas::matvec(A, x, y): new y *)
  mi_diag : list F -> res (list F)                (* A.diag(v): new v *)
}.

(** matrix::CRS *)
Definition crs_if (A : crs F) : matif := mkMatif (m_row A) (m_col A) (crs_matvec A) (crs_diag A).

(** blas::matvec(Dense, x, y): src/blas/matrix/matvec/dense_matvec.hpp:13-56 with cblas_?gemv(1, A, x, 0, y) by
    its specification: beta = 0, so y is written without being read (see also DenseBlasModel.k_matvec) *)
Definition dense_matvec (A : dense F) (x y : list F) : res (list F) :=
  assert_ ((d_row A =? length y) && (d_col A =? length x)) ;;;
  for_ 0 (d_row A) (fun i y =>
    s <- for_ 0 (d_col A) (fun j s =>
           a <- rd (d_val A) (d_first A + (i * d_col A + j)) ;; e <- rd x j ;; Ok (s + a * e)) 0 ;;
    wr y i (1 * s)) y.
(** Dense::diag(vector): src/utils/getvec/dense_getvec.cpp:9-39 (data(), offset ignored) *)
Definition dense_diag (A : dense F) (v : list F) : res (list F) :=
  let n := Nat.min (d_row A) (d_col A) in
  assert_ (n =? length v) ;;;
  for_ 0 n (fun i v => a <- rd (d_val A) (d_col A * i + i) ;; wr v i a) v.
Definition dense_if (A : dense F) : matif := mkMatif (d_row A) (d_col A) (dense_matvec A) (dense_diag A).

(** ** solver parameters and result *)
(** include/monolish_solver.hpp:35-41 *)
Record cfg := mkCfg { s_lib : nat; s_tol : F; s_miniter : nat; s_maxiter : nat; s_method : nat; s_omega : F }.
(** return code, x after the call, get_final_iter(), get_final_residual() *)
Record outcome := mkOut { o_code : Z; o_x : list F; o_iter : nat; o_resid : F }.

(** include/monolish/common/monolish_common.hpp:16-21 *)
Definition SUCCESS : Z := 0.
Definition SIZE_ERROR : Z := -1.
Definition MAXITER : Z := -2.
Definition BREAKDOWN : Z := -3.
Definition RESIDUAL_NAN : Z := -4.
Definition NOT_IMPL : Z := -10.

(** src/equation/equation.cpp:7-17 *)
Definition get_residual (c : cfg) (r : list F) : res F :=
  match s_method c with 0 => v_nrm2 r | _ => Throw end.

(** A preconditioner: create_precond(A), which may fail, gives apply_precond(r, z) *)
Definition precond := matif -> res (list F -> list F -> res (list F)).
(** monolish_solver.hpp:241-246 (default) and src/equation/none.cpp:11-20, 38-45 *)
Definition pc_none : precond := fun _ => Ok (fun r z => v_copy r z).
(** src/equation/jacobi.cpp:11-31, 51-60 *)
Definition pc_jacobi : precond := fun A =>
  require_ (mi_row A =? mi_col A) ;;;
  M <- mi_diag A (repeat 0 (mi_row A)) ;;
  M <- v_recip M M ;;
  Ok (fun r z => v_mul M r z).

(** ** CG: src/equation/cg.cpp:13-83 *)
Section CG.
Variables (c : cfg) (A : matif) (pre : list F -> list F -> res (list F)).

(** lines 46-78; [n] = iterations left, [iter] = the loop counter *)
Fixpoint cg_loop (n iter : nat) (x r p q z : list F) : res outcome :=
  match n with
  | 0 => resid <- get_residual c r ;; Ok (mkOut MAXITER x (s_maxiter c) resid)     (* lines 80-83 *)
  | S n' =>
      q <- mi_vec A p q ;;
      tmp <- v_dot z r ;;
      pq <- v_dot p q ;;
      let alpha := tmp / pq in
      x <- v_axpy alpha p x ;;
      r <- v_axpy (- alpha) q r ;;
      z <- pre r z ;;
      zr <- v_dot z r ;;
      let beta := zr / tmp in
      p <- v_xpay beta z p ;;
      resid <- get_residual c r ;;
      if fltb resid (s_tol c) && (s_miniter c <=? iter + 1) then
        fr <- get_residual c r ;; Ok (mkOut SUCCESS x (iter + 1) fr)
      else if fnan resid then
        fr <- get_residual c r ;; Ok (mkOut RESIDUAL_NAN x (iter + 1) fr)
      else cg_loop n' (S iter) x r p q z
  end.
End CG.

Definition monolish_cg (c : cfg) (A : matif) (pre : precond) (x b : list F) : res outcome :=
  require_ (mi_row A =? mi_col A) ;;;
  let zero := repeat 0 (mi_row A) in
  pre <- pre A ;;
  q <- mi_vec A x zero ;;
  r <- v_sub b q zero ;;
  z <- pre r zero ;;
  p <- v_copy z zero ;;
  cg_loop c A pre (s_maxiter c) 0 x r p q z.

(** cg.cpp:102-113 solve: any lib other than 0 does nothing and returns 0; final_iter and
    final_resid keep their previous values *)
Definition cg_solve (c : cfg) (A : matif) (pre : precond) (x b : list F) (last_iter : nat) (last_resid : F) : res outcome :=
  match s_lib c with 0 => monolish_cg c A pre x b | _ => Ok (mkOut 0%Z x last_iter last_resid) end.

(** ** BiCGSTAB: src/equation/bicgstab.cpp:13-132 *)
Section BiCGSTAB.
Variables (c : cfg) (A : matif) (pre : list F -> list F -> res (list F)) (r0 : list F).

Record bstate := mkB { b_x : list F; b_r : list F; b_p : list F; b_phat : list F; b_s : list F; b_shat : list F;
  b_v : list F; b_t : list F; b_rho_old : F; b_alpha : F; b_omega : F }.

(** lines 54-126 *)
Fixpoint bicg_loop (n iter : nat) (st : bstate) : res outcome :=
  match n with
  | 0 => resid <- get_residual c (b_r st) ;; Ok (mkOut MAXITER (b_x st) (s_maxiter c) resid)
  | S n' =>
      rho <- v_dot (b_r st) r0 ;;
      if feqb rho 0 then
        fr <- get_residual c (b_r st) ;; Ok (mkOut BREAKDOWN (b_x st) (iter + 1) fr)
      else
      p <- (match iter with
            | 0 => v_copy (b_r st) (b_p st)
            | _ => let beta := (rho / b_rho_old st) * (b_alpha st / b_omega st) in
                   p <- v_axpy (- b_omega st) (b_v st) (b_p st) ;; v_xpay beta (b_r st) p
            end) ;;
      phat <- pre p (b_phat st) ;;
      v <- mi_vec A phat (b_v st) ;;
      vr0 <- v_dot v r0 ;;
      let alpha := rho / vr0 in
      s <- v_axpyz (- alpha) v (b_r st) (b_s st) ;;
      shat <- pre s (b_shat st) ;;
      t <- mi_vec A shat (b_t st) ;;
      ts <- v_dot t s ;;
      tt_ <- v_dot t t ;;
      let omega := ts / tt_ in
      if feqb omega 0 then
        fr <- get_residual c (b_r st) ;; Ok (mkOut BREAKDOWN (b_x st) (iter + 1) fr)
      else
      x <- v_axpy alpha phat (b_x st) ;;
      x <- v_axpy omega shat x ;;
      r <- v_axpyz (- omega) t s (b_r st) ;;
      resid <- get_residual c r ;;
      if fltb resid (s_tol c) && (s_miniter c <=? iter + 1) then
        fr <- get_residual c r ;; Ok (mkOut SUCCESS x (iter + 1) fr)
      else if fnan resid then
        fr <- get_residual c r ;; Ok (mkOut RESIDUAL_NAN x (iter + 1) fr)
      else bicg_loop n' (S iter) (mkB x r p phat s shat v t rho alpha omega)
  end.
End BiCGSTAB.

Definition monolish_bicgstab (c : cfg) (A : matif) (pre : precond) (x b : list F) : res outcome :=
  require_ (mi_row A =? mi_col A) ;;;
  let zero := repeat 0 (mi_row A) in
  pre <- pre A ;;
  r <- mi_vec A x zero ;;
  r <- v_sub b r r ;;
  r0 <- v_copy r zero ;;
  bicg_loop c A pre r0 (s_maxiter c) 0 (mkB x r zero zero zero zero zero zero 1 1 1).

(** bicgstab.cpp:155-167 *)
Definition bicgstab_solve (c : cfg) (A : matif) (pre : precond) (x b : list F) (last_iter : nat) (last_resid : F) : res outcome :=
  match s_lib c with 0 => monolish_bicgstab c A pre x b | _ => Ok (mkOut 0%Z x last_iter last_resid) end.

(** ** Jacobi: src/equation/jacobi.cpp:83-149 *)
Section Jacobi.
Variables (c : cfg) (A : matif) (pre : list F -> list F -> res (list F)) (b d : list F) (bnrm2 : F).
(** lines 112-144 *)
Fixpoint jacobi_loop (n iter : nat) (x r t s : list F) : res outcome :=
  match n with
  | 0 => resid <- get_residual c r ;; Ok (mkOut MAXITER x (s_maxiter c) resid)
  | S n' =>
      s <- pre x s ;;
      s <- v_copy x s ;;
      t <- mi_vec A s t ;;
      r <- v_axpyz (- f1) t b r ;;
      nrm <- v_nrm2 r ;;
      r <- v_mul r d r ;;
      x <- v_add x r x ;;
      let nrm := nrm * bnrm2 in
      if fltb nrm (s_tol c) && (s_miniter c <=? iter + 1) then
        fr <- get_residual c r ;; Ok (mkOut SUCCESS x (iter + 1) fr)
      else if fnan nrm then
        fr <- get_residual c r ;; Ok (mkOut RESIDUAL_NAN x (iter + 1) fr)
      else jacobi_loop n' (S iter) x r t s
  end.
End Jacobi.

Definition monolish_jacobi (c : cfg) (A : matif) (pre : precond) (x b : list F) : res outcome :=
  require_ (mi_row A =? mi_col A) ;;;
  let zero := repeat 0 (mi_row A) in
  bn <- v_nrm2 b ;;
  let bnrm2 := 1 / bn in
  d <- mi_diag A zero ;;
  d <- v_recip d d ;;
  pre <- pre A ;;
  jacobi_loop c A pre b d bnrm2 (s_maxiter c) 0 x zero zero zero.
(** jacobi.cpp:175-187 *)
Definition jacobi_solve (c : cfg) (A : matif) (pre : precond) (x b : list F) (last_iter : nat) (last_resid : F) : res outcome :=
  match s_lib c with 0 => monolish_jacobi c A pre x b | _ => Ok (mkOut 0%Z x last_iter last_resid) end.

(** ** SOR kernels: src/equation/kernel/sor_kernel.hpp *)
(** lines 5-24, CRS; state = (tmp, left the loop by break) *)
Definition sor_lower_crs (A : crs F) (D x b : list F) : res (list F) :=
  for_ 0 (m_row A) (fun i x =>
    tmp <- rd b i ;;
    lo <- rd (m_rp A) i ;; hi <- rd (m_rp A) (i + 1) ;;
    '(tmp, _) <- for_ lo hi (fun j (s : F * bool) =>
        let (tmp, stop) := s in
        if stop then Ok (tmp, true) else
        cj <- rd (m_ci A) j ;;
        if cj <? i then v <- rd (m_val A) j ;; e <- rd x cj ;; Ok (tmp - v * e, false) else Ok (tmp, true)) (tmp, false) ;;
    d <- rd D i ;; wr x i (tmp * d)) x.
(** lines 26-40, Dense *)
Definition sor_lower_dense (A : dense F) (D x b : list F) : res (list F) :=
  for_ 0 (d_row A) (fun i x =>
    tmp <- rd b i ;;
    tmp <- for_ 0 i (fun j tmp => v <- rd (d_val A) (i * d_col A + j) ;; e <- rd x j ;; Ok (tmp - v * e)) tmp ;;
    d <- rd D i ;; wr x i (tmp * d)) x.
(** lines 42-72, CRS; the accumulator of the second loop has type double also for float (not modelled) *)
Definition sor_precond_crs (A : crs F) (D x b : list F) : res (list F) :=
  x <- for_ 0 (m_row A) (fun i x =>
    tmp <- rd b i ;;
    lo <- rd (m_rp A) i ;; hi <- rd (m_rp A) (i + 1) ;;
    tmp <- for_ lo hi (fun j tmp =>
        cj <- rd (m_ci A) j ;;
        if cj <? i then v <- rd (m_val A) j ;; e <- rd x cj ;; Ok (tmp - v * e) else Ok tmp) tmp ;;
    d <- rd D i ;; wr x i (tmp * d)) x ;;
  for_ 0 (m_row A) (fun k x =>
    let i := (m_row A - 1 - k)%nat in
    lo <- rd (m_rp A) i ;; hi <- rd (m_rp A) (i + 1) ;;
    tmp <- for_ lo hi (fun j tmp =>
        cj <- rd (m_ci A) j ;;
        if i <? cj then v <- rd (m_val A) j ;; e <- rd x cj ;; Ok (tmp + v * e) else Ok tmp) 0 ;;
    d <- rd D i ;; xi <- rd x i ;; wr x i (xi - tmp * d)) x.
(** lines 74-102, Dense: the second loop runs j = col, col-1, ..., i+1 (line 92) *)
Definition sor_precond_dense (A : dense F) (D x b : list F) : res (list F) :=
  x <- for_ 0 (d_row A) (fun i x =>
    tmp <- rd b i ;;
    tmp <- for_ 0 i (fun j tmp => v <- rd (d_val A) (i * d_col A + j) ;; e <- rd x j ;; Ok (tmp - v * e)) tmp ;;
    d <- rd D i ;; wr x i (tmp * d)) x ;;
  for_ 0 (d_row A) (fun k x =>
    let i := (d_row A - 1 - k)%nat in
    tmp <- for_ 0 (d_col A - i) (fun l tmp =>
        let j := (d_col A - l)%nat in
        v <- rd (d_val A) (i * d_col A + j) ;; e <- rd x j ;; Ok (tmp + v * e)) 0 ;;
    d <- rd D i ;; xi <- rd x i ;; wr x i (xi - tmp * d)) x.

(** src/equation/sor.cpp:13-38 create_precond, 59-66 apply_precond; [kernel] = sor_kernel_precond(A, ...) *)
Definition pc_sor (omega : F) (kernel : list F -> list F -> list F -> res (list F)) : precond := fun A =>
  require_ (mi_row A =? mi_col A) ;;;
  M <- mi_diag A (repeat 0 (mi_row A)) ;;
  M <- v_recip (v_scal omega M) M ;;
  Ok (fun r z => kernel M z r).

(** ** SOR: src/equation/sor.cpp:88-163; [lower] = sor_kernel_lower(A, ...) *)
Section SOR.
Variables (c : cfg) (A : matif) (lower : list F -> list F -> list F -> res (list F))
  (pre : list F -> list F -> res (list F)) (b d : list F) (bnrm2 : F).
Fixpoint sor_loop (n iter : nat) (x r t s : list F) : res outcome :=
  match n with
  | 0 => resid <- get_residual c r ;; Ok (mkOut MAXITER x (s_maxiter c) resid)
  | S n' =>
      s <- pre x s ;;
      t <- mi_vec A s t ;;
      r <- v_axpyz (- f1) t b r ;;
      nrm <- v_nrm2 r ;;
      t <- lower d t r ;;
      x <- v_axpy 1 t x ;;
      let nrm := nrm * bnrm2 in
      if fltb nrm (s_tol c) && (s_miniter c <=? iter + 1) then
        fr <- get_residual c r ;; Ok (mkOut SUCCESS x (iter + 1) fr)
      else if fnan nrm then
        fr <- get_residual c r ;; Ok (mkOut RESIDUAL_NAN x (iter + 1) fr)
      else sor_loop n' (S iter) x r t s
  end.
End SOR.
Definition monolish_sor (c : cfg) (A : matif) (lower : list F -> list F -> list F -> res (list F)) (pre : precond)
  (x b : list F) : res outcome :=
  require_ (mi_row A =? mi_col A) ;;;
  let zero := repeat 0 (mi_row A) in
  let w := 1 / s_omega c in
  d <- mi_diag A zero ;;
  d <- v_recip (v_scal w d) d ;;
  bn <- v_nrm2 b ;;
  let bnrm2 := 1 / bn in
  pre <- pre A ;;
  sor_loop c A lower pre b d bnrm2 (s_maxiter c) 0 x zero zero zero.
(** sor.cpp:185-197 *)
Definition sor_solve (c : cfg) (A : matif) (lower : list F -> list F -> list F -> res (list F)) (pre : precond)
  (x b : list F) (last_iter : nat) (last_resid : F) : res outcome :=
  match s_lib c with 0 => monolish_sor c A lower pre x b | _ => Ok (mkOut 0%Z x last_iter last_resid) end.

(** src/equation/none.cpp:66-76 none::solve *)
Definition none_solve (x : list F) (last_iter : nat) (last_resid : F) : res outcome :=
  Ok (mkOut SUCCESS x last_iter last_resid).

(** src/utils/equation_utils.cpp:33-71 get_residual_l2(A, x, y) *)
Definition get_residual_l2 (A : matif) (x y : list F) : res F :=
  let tmp := repeat 0 (length x) in
  tmp <- mi_vec A x tmp ;;
  tmp <- v_sub y tmp tmp ;;
  v_nrm2 tmp.

End SolverModel.

(** ** solver_check: src/utils/equation_utils.cpp:7-29.  The std::runtime_error objects of the error
    cases are constructed and discarded, not thrown. *)
Definition solver_check (err : Z) : res bool :=
  if (err =? SUCCESS)%Z then Ok false
  else if (err =? MAXITER)%Z then Ok false
  else if (err =? BREAKDOWN)%Z then Ok false
  else if (err =? SIZE_ERROR)%Z then Ok false
  else if (err =? RESIDUAL_NAN)%Z then Ok false
  else if (err =? NOT_IMPL)%Z then Ok false
  else Ok false.
