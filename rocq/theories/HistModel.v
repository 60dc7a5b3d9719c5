(** * HistModel: the iterative solvers of SolverModel.v with the residual history they print (model only).

    include/monolish_solver.hpp:116-119 set_print_rhistory(flag): [pr] is the flag.  Each solver prints one line
    "iter + 1 TAB value" at one place of its loop; a line is modelled as the pair of the two numbers printed
    (number formatting: std::scientific, not modelled).  A model run returns the outcome and the lines. *)
From Verif Require Import Base Scalar SolverModel.
Set Implicit Arguments.

Section HistModel.
Context {F : Type} {SF : Scalar F}.
Local Open Scope F_scope.

Definition line : Type := nat * F.
Definition run : Type := outcome (F:=F) * list line.
(** the print statement: cg.cpp:62-65, bicgstab.cpp:109-112, jacobi.cpp:126-129, sor.cpp:141-144 *)
Definition emit (pr : bool) (iter : nat) (v : F) : list line := if pr then [((iter + 1)%nat, v)] else [].
(** the lines [l] are printed before those of the rest of the loop *)
Definition after (l : list line) (m : res run) : res run := oh <- m ;; Ok (fst oh, l ++ snd oh).

(** cg.cpp:46-83 *)
Section CG.
Variables (pr : bool) (c : cfg (F:=F)) (A : matif (F:=F)) (pre : list F -> list F -> res (list F)).
Fixpoint cg_loop_h (n iter : nat) (x r p q z : list F) : res run :=
  match n with
  | 0 => resid <- get_residual c r ;; Ok (mkOut MAXITER x (s_maxiter c) resid, [])
  | S n' =>
      q <- mi_vec A p q ;;
      tmp <- v_dot z r ;;
      pq <- v_dot p q ;;
      let alpha := tmp / pq in
      x <- v_axpy alpha p x ;;
      r <- v_axpy (- alpha) q r ;;
      z <- pre r z ;;
      zr <- v_dot z r ;;
      let beta := zr / tmp in
      p <- v_xpay beta z p ;;
      resid <- get_residual c r ;;
      let out := emit pr iter resid in
      if fltb resid (s_tol c) && (s_miniter c <=? iter + 1) then
        fr <- get_residual c r ;; Ok (mkOut SUCCESS x (iter + 1) fr, out)
      else if fnan resid then
        fr <- get_residual c r ;; Ok (mkOut RESIDUAL_NAN x (iter + 1) fr, out)
      else after out (cg_loop_h n' (S iter) x r p q z)
  end.
End CG.
(** cg.cpp:13-45 *)
Definition monolish_cg_h (pr : bool) (c : cfg) (A : matif) (pre : precond) (x b : list F) : res run :=
  require_ (mi_row A =? mi_col A) ;;;
  let zero := repeat 0 (mi_row A) in
  pre <- pre A ;;
  q <- mi_vec A x zero ;;
  r <- v_sub b q zero ;;
  z <- pre r zero ;;
  p <- v_copy z zero ;;
  cg_loop_h pr c A pre (s_maxiter c) 0 x r p q z.
(** cg.cpp:102-113 *)
Definition cg_solve_h (pr : bool) (c : cfg) (A : matif) (pre : precond) (x b : list F) (last_iter : nat) (last_resid : F) : res run :=
  match s_lib c with 0 => monolish_cg_h pr c A pre x b | _ => Ok (mkOut 0%Z x last_iter last_resid, []) end.

(** bicgstab.cpp:54-132 *)
Section BiCGSTAB.
Variables (pr : bool) (c : cfg (F:=F)) (A : matif (F:=F)) (pre : list F -> list F -> res (list F)) (r0 : list F).
Fixpoint bicg_loop_h (n iter : nat) (st : bstate (F:=F)) : res run :=
  match n with
  | 0 => resid <- get_residual c (b_r st) ;; Ok (mkOut MAXITER (b_x st) (s_maxiter c) resid, [])
  | S n' =>
      rho <- v_dot (b_r st) r0 ;;
      if feqb rho 0 then
        fr <- get_residual c (b_r st) ;; Ok (mkOut BREAKDOWN (b_x st) (iter + 1) fr, [])
      else
      p <- (match iter with
            | 0 => v_copy (b_r st) (b_p st)
            | _ => let beta := (rho / b_rho_old st) * (b_alpha st / b_omega st) in
                   p <- v_axpy (- b_omega st) (b_v st) (b_p st) ;; v_xpay beta (b_r st) p
            end) ;;
      phat <- pre p (b_phat st) ;;
      v <- mi_vec A phat (b_v st) ;;
      vr0 <- v_dot v r0 ;;
      let alpha := rho / vr0 in
      s <- v_axpyz (- alpha) v (b_r st) (b_s st) ;;
      shat <- pre s (b_shat st) ;;
      t <- mi_vec A shat (b_t st) ;;
      ts <- v_dot t s ;;
      tt_ <- v_dot t t ;;
      let omega := ts / tt_ in
      if feqb omega 0 then
        fr <- get_residual c (b_r st) ;; Ok (mkOut BREAKDOWN (b_x st) (iter + 1) fr, [])
      else
      x <- v_axpy alpha phat (b_x st) ;;
      x <- v_axpy omega shat x ;;
      r <- v_axpyz (- omega) t s (b_r st) ;;
      resid <- get_residual c r ;;
      let out := emit pr iter resid in
      if fltb resid (s_tol c) && (s_miniter c <=? iter + 1) then
        fr <- get_residual c r ;; Ok (mkOut SUCCESS x (iter + 1) fr, out)
      else if fnan resid then
        fr <- get_residual c r ;; Ok (mkOut RESIDUAL_NAN x (iter + 1) fr, out)
      else after out (bicg_loop_h n' (S iter) (mkB x r p phat s shat v t rho alpha omega))
  end.
End BiCGSTAB.
(** bicgstab.cpp:13-53 *)
Definition monolish_bicgstab_h (pr : bool) (c : cfg) (A : matif) (pre : precond) (x b : list F) : res run :=
  require_ (mi_row A =? mi_col A) ;;;
  let zero := repeat 0 (mi_row A) in
  pre <- pre A ;;
  r <- mi_vec A x zero ;;
  r <- v_sub b r r ;;
  r0 <- v_copy r zero ;;
  bicg_loop_h pr c A pre r0 (s_maxiter c) 0 (mkB x r zero zero zero zero zero zero 1 1 1).
(** bicgstab.cpp:155-167 *)
Definition bicgstab_solve_h (pr : bool) (c : cfg) (A : matif) (pre : precond) (x b : list F) (last_iter : nat) (last_resid : F) : res run :=
  match s_lib c with 0 => monolish_bicgstab_h pr c A pre x b | _ => Ok (mkOut 0%Z x last_iter last_resid, []) end.

(** jacobi.cpp:112-149 *)
Section Jacobi.
Variables (pr : bool) (c : cfg (F:=F)) (A : matif (F:=F)) (pre : list F -> list F -> res (list F)) (b d : list F) (bnrm2 : F).
Fixpoint jacobi_loop_h (n iter : nat) (x r t s : list F) : res run :=
  match n with
  | 0 => resid <- get_residual c r ;; Ok (mkOut MAXITER x (s_maxiter c) resid, [])
  | S n' =>
      s <- pre x s ;;
      s <- v_copy x s ;;
      t <- mi_vec A s t ;;
      r <- v_axpyz (- f1) t b r ;;
      nrm <- v_nrm2 r ;;
      r <- v_mul r d r ;;
      x <- v_add x r x ;;
      let nrm := nrm * bnrm2 in
      let out := emit pr iter nrm in
      if fltb nrm (s_tol c) && (s_miniter c <=? iter + 1) then
        fr <- get_residual c r ;; Ok (mkOut SUCCESS x (iter + 1) fr, out)
      else if fnan nrm then
        fr <- get_residual c r ;; Ok (mkOut RESIDUAL_NAN x (iter + 1) fr, out)
      else after out (jacobi_loop_h n' (S iter) x r t s)
  end.
End Jacobi.
(** jacobi.cpp:83-111 *)
Definition monolish_jacobi_h (pr : bool) (c : cfg) (A : matif) (pre : precond) (x b : list F) : res run :=
  require_ (mi_row A =? mi_col A) ;;;
  let zero := repeat 0 (mi_row A) in
  bn <- v_nrm2 b ;;
  let bnrm2 := 1 / bn in
  d <- mi_diag A zero ;;
  d <- v_recip d d ;;
  pre <- pre A ;;
  jacobi_loop_h pr c A pre b d bnrm2 (s_maxiter c) 0 x zero zero zero.
(** jacobi.cpp:175-187 *)
Definition jacobi_solve_h (pr : bool) (c : cfg) (A : matif) (pre : precond) (x b : list F) (last_iter : nat) (last_resid : F) : res run :=
  match s_lib c with 0 => monolish_jacobi_h pr c A pre x b | _ => Ok (mkOut 0%Z x last_iter last_resid, []) end.

(** sor.cpp:122-162 *)
Section SOR.
Variables (pr : bool) (c : cfg (F:=F)) (A : matif (F:=F)) (lower : list F -> list F -> list F -> res (list F))
  (pre : list F -> list F -> res (list F)) (b d : list F) (bnrm2 : F).
Fixpoint sor_loop_h (n iter : nat) (x r t s : list F) : res run :=
  match n with
  | 0 => resid <- get_residual c r ;; Ok (mkOut MAXITER x (s_maxiter c) resid, [])
  | S n' =>
      s <- pre x s ;;
      t <- mi_vec A s t ;;
      r <- v_axpyz (- f1) t b r ;;
      nrm <- v_nrm2 r ;;
      t <- lower d t r ;;
      x <- v_axpy 1 t x ;;
      let nrm := nrm * bnrm2 in
      let out := emit pr iter nrm in
      if fltb nrm (s_tol c) && (s_miniter c <=? iter + 1) then
        fr <- get_residual c r ;; Ok (mkOut SUCCESS x (iter + 1) fr, out)
      else if fnan nrm then
        fr <- get_residual c r ;; Ok (mkOut RESIDUAL_NAN x (iter + 1) fr, out)
      else after out (sor_loop_h n' (S iter) x r t s)
  end.
End SOR.
(** sor.cpp:92-121 *)
Definition monolish_sor_h (pr : bool) (c : cfg) (A : matif) (lower : list F -> list F -> list F -> res (list F)) (pre : precond)
  (x b : list F) : res run :=
  require_ (mi_row A =? mi_col A) ;;;
  let zero := repeat 0 (mi_row A) in
  let w := 1 / s_omega c in
  d <- mi_diag A zero ;;
  d <- v_recip (v_scal w d) d ;;
  bn <- v_nrm2 b ;;
  let bnrm2 := 1 / bn in
  pre <- pre A ;;
  sor_loop_h pr c A lower pre b d bnrm2 (s_maxiter c) 0 x zero zero zero.
(** sor.cpp:185-197 *)
Definition sor_solve_h (pr : bool) (c : cfg) (A : matif) (lower : list F -> list F -> list F -> res (list F)) (pre : precond)
  (x b : list F) (last_iter : nat) (last_resid : F) : res run :=
  match s_lib c with 0 => monolish_sor_h pr c A lower pre x b | _ => Ok (mkOut 0%Z x last_iter last_resid, []) end.
End HistModel.
