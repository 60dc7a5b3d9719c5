(** * LobModel: the LOBPCG eigensolvers (model only, no proofs).

    standard_eigen::LOBPCG (src/eigen/lobpcg_standard.cpp) and generalized_eigen::LOBPCG
    (src/eigen/lobpcg_generalized.cpp), host memory.  The rows of wxp, WXP, ... (view1D objects w, x, p, W, X, P, lines
    52-79) are disjoint ranges of length n of one array each; they are modelled as lists of m rows.  Simplifications:
    - set_row/set_col (lines 136-144, 295-303) only choose between the first 2m rows and all 3m rows of these arrays,
      and the choice is always [iter == 0 || is_singular]; here the flag [small] makes it;
    - twxp and the row-major layout of Sam/Sbm are left out: matmul(WXP, twxp, Sam) (lines 150-158) is the matrix of
      the dot products of the rows (cblas ?gemm by its specification, beta = 0);
    - LAPACK's ?sygvd is external: [sygvd k Sa Sb] is what its k-th call returns, (info, W, what it leaves in A); any
      function is allowed, so also one that depends on the call;
    - blas::copy between whole arrays and rows, BLAS-1 and matvec as in SolverModel.v; printing is left out. *)
From Verif Require Import Base Scalar SolverModel.
Set Implicit Arguments.

Section LobModel.
Context {F : Type} {SF : Scalar F}.
Local Open Scope F_scope.
Local Notation vec := (list F).
Local Notation rows := (list (list F)).

(** a loop over rows, in order *)
Fixpoint traverse {X Y : Type} (f : X -> res Y) (l : list X) : res (list Y) :=
  match l with [] => Ok [] | a :: t => b <- f a ;; bs <- traverse f t ;; Ok (b :: bs) end.

(** vml::max(residual): src/vml/vector/math_1_3op/vecmax.hpp:35-43; reads element 0 first.  Sequential here; C26 proves
    that the parallel reduction returns the same on totally ordered values *)
Definition v_max (r : vec) : res F :=
  match r with [] => UB | a :: t => Ok (fold_left (fun m v => if fltb m v then v else m) t a) end.

(** blas::matmul(R, twxp, S): lobpcg_standard.cpp:156-158; S[i][j] = sum_k R[i][k] wxp[j][k] *)
Definition gram (R Q : rows) : res rows :=
  traverse (fun r => traverse (fun q => v_dot r q) Q) R.

(** the LAPACK oracle; src/internal/lapack/sygv/dense_double_sygv.cpp:12-103 (itype 1, jobz V, uplo L) *)
Definition sygvd_t := nat -> rows -> rows -> Z * vec * rows.

(** lobpcg_standard.cpp:219-239 for the arrays wxp_p resp. WXP_p: new rows (p[i], x[i]) from b, starting from zero *)
Definition combine (m n : nat) (b : vec) (ws xs ps : rows) : res (vec * vec) :=
  let zero := repeat 0 n in
  for_ 0 m (fun j (px : vec * vec) =>
    let (p, x) := px in
    b0 <- rd b j ;; b2 <- rd b (2 * m + j)%nat ;; b1 <- rd b (m + j)%nat ;;
    wj <- rd ws j ;; pj <- rd ps j ;; xj <- rd xs j ;;
    p <- v_axpy b0 wj p ;;
    p <- v_axpy b2 pj p ;;
    x <- v_axpy b0 wj x ;;
    x <- v_axpy b2 pj x ;;
    x <- v_axpy b1 xj x ;;
    Ok (p, x)) (zero, zero).

(** lines 205-218: row i of Sam, zero-padded to 3m when only 2m rows are used *)
Definition coeffs (m : nat) (small : bool) (V : rows) (i : nat) : res vec :=
  b <- rd V i ;;
  assert_ (length b =? (if small then 2 * m else 3 * m))%nat ;;;
  Ok (if small then b ++ repeat 0 m else b).

(** what the caller sees: return code, l, xinout, get_final_iter(), get_final_residual().  [lo_info] is not part of
    the API: the info value of the last ?sygvd call *)
Record lout := mkLout { lo_code : Z; lo_l : vec; lo_x : rows; lo_iter : nat; lo_resid : F; lo_info : Z }.

(** lines 173-178 *)
Definition lbound (m : nat) (small : bool) : Z := if small then 3 * Z.of_nat m else 5 * Z.of_nat m.
Definition ubound (m : nat) (small : bool) : Z := if small then 4 * Z.of_nat m else 6 * Z.of_nat m.

(** lines 179-192: what is done with info *)
Inductive verdict := VRestart | VThrow | VUse.
Definition judge (m : nat) (small : bool) (info : Z) : verdict :=
  if (lbound m small <? info)%Z && (info <=? ubound m small)%Z then VRestart
  else if negb (info =? 0)%Z && (info <? Z.of_nat m)%Z then VThrow
  else VUse.

(** ** standard_eigen::LOBPCG *)
(** the arrays wxp and WXP, l, vtmp1 *)
Record lst := mkL { g_w : rows; g_x : rows; g_p : rows; g_W : rows; g_X : rows; g_P : rows; g_l : vec; g_tmp : vec }.

Section Standard.
Variables (c : cfg (F:=F)) (A : matif (F:=F)) (pre : vec -> vec -> res vec) (sygvd : sygvd_t) (m n : nat).

(** lines 201-277, one i; [o] holds the rows of wxp_p and WXP_p, (lam, V) what ?sygvd returned.
    Result: the new state and residual[i]; W is computed only if residual[i] is not NaN *)
Definition lob_row (small : bool) (o : lst) (lam : vec) (V : rows) (i : nat) (st : lst) : res (lst * F) :=
  li <- rd lam i ;;
  l <- wr (g_l st) i li ;;
  b <- coeffs m small V i ;;
  '(p, x) <- combine m n b (g_w o) (g_x o) (g_p o) ;;
  '(P, X) <- combine m n b (g_W o) (g_X o) (g_P o) ;;
  normp <- v_nrm2 p ;;
  let p := v_scal (1 / normp) p in
  let P := v_scal (1 / normp) P in
  normx <- v_nrm2 x ;;
  let x := v_scal (1 / normx) x in
  let X := v_scal (1 / normx) X in
  w0 <- rd (g_w st) i ;;
  w <- v_axpyz (- li) x X w0 ;;
  tmp <- pre w (g_tmp st) ;;
  w <- v_copy tmp w ;;
  r <- v_nrm2 w ;;
  W0 <- rd (g_W st) i ;;
  '(w, W) <- (if fnan r then Ok (w, W0) else
              let w := v_scal (1 / r) w in W <- mi_vec A w W0 ;; Ok (w, W)) ;;
  gw <- wr (g_w st) i w ;; gx <- wr (g_x st) i x ;; gp <- wr (g_p st) i p ;;
  gW <- wr (g_W st) i W ;; gX <- wr (g_X st) i X ;; gP <- wr (g_P st) i P ;;
  Ok (mkL gw gx gp gW gX gP l tmp, r).

(** lines 201-277: the loop over i, left at the first NaN (lines 263-272).  [acc] = residual[0..i-1] *)
Fixpoint lob_rows (small : bool) (o : lst) (lam : vec) (V : rows) (k i : nat) (st : lst) (acc : vec) : res (lst * vec * option F) :=
  match k with
  | 0 => Ok (st, acc, None)
  | S k' =>
      '(st, r) <- lob_row small o lam V i st ;;
      if fnan r then Ok (st, acc, Some r) else lob_rows small o lam V k' (S i) st (acc ++ [r])
  end.

(** lines 127-305: one pass through the body of the iteration; [call] = number of ?sygvd calls made so far *)
Inductive pass := Restart (info : Z) | Done (o : lout) | Next (st : lst) (resid : F) (info : Z).
Definition lob_pass (iter : nat) (singular : bool) (call : nat) (st : lst) : res pass :=
  let small := (iter =? 0)%nat || singular in
  let q := if small then g_w st ++ g_x st else g_w st ++ g_x st ++ g_p st in
  let Q := if small then g_W st ++ g_X st else g_W st ++ g_X st ++ g_P st in
  Sa <- gram Q q ;;
  Sb <- gram q q ;;
  let '(info, lam, V) := sygvd call Sa Sb in
  match judge m small info with
  | VRestart => Ok (Restart info)
  | VThrow => Throw
  | VUse =>
      '(st', rs, bad) <- lob_rows small st lam V m 0 st [] ;;
      match bad with
      | Some r => Ok (Done (mkLout RESIDUAL_NAN (g_l st') (g_x st') (iter + 1) r info))
      | None =>
          resid <- v_max rs ;;
          if fltb resid (s_tol c) && (s_miniter c <? iter + 1)
          then Ok (Done (mkLout SUCCESS (g_l st') (g_x st') (iter + 1) resid info))
          else Ok (Next st' resid info)
      end
  end.

(** the iteration (lines 127-313).  It may never end, so it is given [fuel] passes: [NoFuel] means "still running" *)
Fixpoint lob_loop (fuel : nat) (iter : nat) (singular : bool) (call : nat) (st : lst) (resid : F) (info : Z) : res lout :=
  match fuel with
  | 0 => NoFuel
  | S fuel' =>
      if iter <? s_maxiter c then
        r <- lob_pass iter singular call st ;;
        match r with
        | Restart i => lob_loop fuel' iter true (S call) st resid i         (* iter--; continue (lines 184-186) *)
        | Done o => Ok o
        | Next st' resid' i => lob_loop fuel' (S iter) false (S call) st' resid' i
        end
      else Ok (mkLout MAXITER (g_l st) (g_x st) (s_maxiter c) resid info)
  end.

(** lines 104-115: X, w, W from x *)
Definition lob_init_row (x : vec) : res (vec * vec * vec) :=
  X <- mi_vec A x (repeat 0 n) ;;
  mu <- v_dot x X ;;
  w <- v_axpyz (- mu) x X (repeat 0 n) ;;
  norm <- v_nrm2 w ;;
  let w := v_scal (1 / norm) w in
  W <- mi_vec A w (repeat 0 n) ;;
  Ok (X, w, W).
End Standard.

(** lines 81-98: the starting vectors.  [rnd i] = the i-th vector util::random_vector draws *)
Inductive initvec := RANDOM (rnd : nat -> vec) | USER.
Definition start_rows (n : nat) (s : initvec) (x : rows) : res rows :=
  match s with
  | RANDOM rnd => traverse (fun i => x <- v_copy (rnd i) (repeat 0 n) ;; norm <- v_nrm2 x ;; Ok (v_scal (1 / norm) x)) (seq 0 (length x))
  | USER => traverse (fun r => v_copy r (repeat 0 n)) x
  end.

(** lobpcg_standard.cpp:11-314; xinout has row count [length x] and column count [xcol].
    Vectors and Dense matrices are created zero-filled *)
Definition lobpcg (fuel : nat) (c : cfg (F:=F)) (s : initvec) (A : matif (F:=F)) (pre : precond (F:=F)) (sygvd : sygvd_t)
  (l : vec) (xcol : nat) (x : rows) : res lout :=
  require_ (mi_col A =? xcol)%nat ;;;
  require_ (length l =? length x)%nat ;;;
  apply <- pre A ;;
  let m := length l in let n := mi_col A in
  x <- start_rows n s x ;;
  init <- traverse (lob_init_row A n) x ;;
  let zeros := repeat (repeat 0 n) m in
  lob_loop c A apply sygvd m n fuel 0 false 0
    (mkL (map (fun t => snd (fst t)) init) x zeros (map snd init) (map (fun t => fst (fst t)) init) zeros l (repeat 0 n)) 0 0.

(** lobpcg_standard.cpp:336-350 solve: any lib other than 0 does nothing and returns 0 *)
Definition lobpcg_solve (fuel : nat) (c : cfg (F:=F)) (s : initvec) (A : matif (F:=F)) (pre : precond (F:=F)) (sygvd : sygvd_t)
  (l : vec) (xcol : nat) (x : rows) (last_iter : nat) (last_resid : F) : res lout :=
  match s_lib c with
  | 0 => lobpcg fuel c s A pre sygvd l xcol x
  | _ => Ok (mkLout 0%Z l x last_iter last_resid 0)
  end.

(** ** generalized_eigen::LOBPCG: src/eigen/lobpcg_generalized.cpp *)
(** adds BWXP (lines 44, 86-88) *)
Record glst := mkG { h_a : lst; h_BW : rows; h_BX : rows; h_BP : rows }.

Section Generalized.
Variables (c : cfg (F:=F)) (A B : matif (F:=F)) (pre : vec -> vec -> res vec) (sygvd : sygvd_t) (m n : nat).

(** lines 229-321, one i: line 293 is [axpyz(-l[i], x[i], X[i], w[i])], as in the standard solver *)
Definition glob_row (small : bool) (o : glst) (lam : vec) (V : rows) (i : nat) (st : glst) : res (glst * F) :=
  let sa := h_a st in let oa := h_a o in
  li <- rd lam i ;;
  l <- wr (g_l sa) i li ;;
  b <- coeffs m small V i ;;
  '(p, x) <- combine m n b (g_w oa) (g_x oa) (g_p oa) ;;
  '(P, X) <- combine m n b (g_W oa) (g_X oa) (g_P oa) ;;
  '(BP, BX) <- combine m n b (h_BW o) (h_BX o) (h_BP o) ;;
  normp <- v_nrm2 p ;;
  let p := v_scal (1 / normp) p in
  let P := v_scal (1 / normp) P in
  let BP := v_scal (1 / normp) BP in
  normx <- v_nrm2 x ;;
  let x := v_scal (1 / normx) x in
  let X := v_scal (1 / normx) X in
  let BX := v_scal (1 / normx) BX in
  w0 <- rd (g_w sa) i ;;
  w <- v_axpyz (- li) x X w0 ;;
  tmp <- pre w (g_tmp sa) ;;
  w <- v_copy tmp w ;;
  r <- v_nrm2 w ;;
  W0 <- rd (g_W sa) i ;; BW0 <- rd (h_BW st) i ;;
  '(w, W, BW) <- (if fnan r then Ok (w, W0, BW0) else
              let w := v_scal (1 / r) w in W <- mi_vec A w W0 ;; BW <- mi_vec B w BW0 ;; Ok (w, W, BW)) ;;
  gw <- wr (g_w sa) i w ;; gx <- wr (g_x sa) i x ;; gp <- wr (g_p sa) i p ;;
  gW <- wr (g_W sa) i W ;; gX <- wr (g_X sa) i X ;; gP <- wr (g_P sa) i P ;;
  hW <- wr (h_BW st) i BW ;; hX <- wr (h_BX st) i BX ;; hP <- wr (h_BP st) i BP ;;
  Ok (mkG (mkL gw gx gp gW gX gP l tmp) hW hX hP, r).

Fixpoint glob_rows (small : bool) (o : glst) (lam : vec) (V : rows) (k i : nat) (st : glst) (acc : vec) : res (glst * vec * option F) :=
  match k with
  | 0 => Ok (st, acc, None)
  | S k' =>
      '(st, r) <- glob_row small o lam V i st ;;
      if fnan r then Ok (st, acc, Some r) else glob_rows small o lam V k' (S i) st (acc ++ [r])
  end.

(** lines 152-351: Sb from BWXP (line 186) *)
Inductive gpass := GRestart (info : Z) | GDone (o : lout) | GNext (st : glst) (resid : F) (info : Z).
Definition glob_pass (iter : nat) (singular : bool) (call : nat) (st : glst) : res gpass :=
  let small := (iter =? 0)%nat || singular in
  let sa := h_a st in
  let q := if small then g_w sa ++ g_x sa else g_w sa ++ g_x sa ++ g_p sa in
  let Q := if small then g_W sa ++ g_X sa else g_W sa ++ g_X sa ++ g_P sa in
  let BQ := if small then h_BW st ++ h_BX st else h_BW st ++ h_BX st ++ h_BP st in
  Sa <- gram Q q ;;
  Sb <- gram BQ q ;;
  let '(info, lam, V) := sygvd call Sa Sb in
  match judge m small info with
  | VRestart => Ok (GRestart info)
  | VThrow => Throw
  | VUse =>
      '(st', rs, bad) <- glob_rows small st lam V m 0 st [] ;;
      match bad with
      | Some r => Ok (GDone (mkLout RESIDUAL_NAN (g_l (h_a st')) (g_x (h_a st')) (iter + 1) r info))
      | None =>
          resid <- v_max rs ;;
          if fltb resid (s_tol c) && (s_miniter c <? iter + 1)
          then Ok (GDone (mkLout SUCCESS (g_l (h_a st')) (g_x (h_a st')) (iter + 1) resid info))
          else Ok (GNext st' resid info)
      end
  end.

Fixpoint glob_loop (fuel : nat) (iter : nat) (singular : bool) (call : nat) (st : glst) (resid : F) (info : Z) : res lout :=
  match fuel with
  | 0 => NoFuel
  | S fuel' =>
      if iter <? s_maxiter c then
        r <- glob_pass iter singular call st ;;
        match r with
        | GRestart i => glob_loop fuel' iter true (S call) st resid i
        | GDone o => Ok o
        | GNext st' resid' i => glob_loop fuel' (S iter) false (S call) st' resid' i
        end
      else Ok (mkLout MAXITER (g_l (h_a st)) (g_x (h_a st)) (s_maxiter c) resid info)
  end.

(** lines 124-141; line 134 is [axpyz(-mu, x[i], BX[i], w[i])]: w = B x - mu x *)
Definition glob_init_row (x : vec) : res (vec * vec * vec * vec * vec) :=
  X <- mi_vec A x (repeat 0 n) ;;
  BX <- mi_vec B x (repeat 0 n) ;;
  muA <- v_dot x X ;;
  muB <- v_dot x BX ;;
  let mu := muA / muB in
  w <- v_axpyz (- mu) x BX (repeat 0 n) ;;
  norm <- v_nrm2 w ;;
  let w := v_scal (1 / norm) w in
  W <- mi_vec A w (repeat 0 n) ;;
  BW <- mi_vec B w (repeat 0 n) ;;
  Ok (X, w, W, BX, BW).
End Generalized.

(** lobpcg_generalized.cpp:10-361 *)
Definition globpcg (fuel : nat) (c : cfg (F:=F)) (s : initvec) (A B : matif (F:=F)) (pre : precond (F:=F)) (sygvd : sygvd_t)
  (l : vec) (xcol : nat) (x : rows) (itype : Z) : res lout :=
  assert_ (itype =? 1)%Z ;;;
  require_ (mi_col A =? xcol)%nat ;;;
  require_ ((mi_col A =? mi_col B) && (mi_row A =? mi_row B))%nat ;;;
  require_ (length l =? length x)%nat ;;;
  apply <- pre A ;;
  let m := length l in let n := mi_col A in
  x <- start_rows n s x ;;
  init <- traverse (glob_init_row A B n) x ;;
  let zeros := repeat (repeat 0 n) m in
  glob_loop c A B apply sygvd m n fuel 0 false 0
    (mkG (mkL (map (fun t => snd (fst (fst (fst t)))) init) x zeros (map (fun t => snd (fst (fst t))) init)
              (map (fun t => fst (fst (fst (fst t)))) init) zeros l (repeat 0 n))
         (map snd init) (map (fun t => snd (fst t)) init) zeros) 0 0.

(** lobpcg_generalized.cpp:388-403 *)
Definition globpcg_solve (fuel : nat) (c : cfg (F:=F)) (s : initvec) (A B : matif (F:=F)) (pre : precond (F:=F)) (sygvd : sygvd_t)
  (l : vec) (xcol : nat) (x : rows) (itype : Z) (last_iter : nat) (last_resid : F) : res lout :=
  match s_lib c with
  | 0 => globpcg fuel c s A B pre sygvd l xcol x itype
  | _ => Ok (mkLout 0%Z l x last_iter last_resid 0)
  end.

End LobModel.
