(** * PropertiesSolver: the theorems for C34-C37 and C49-C51 (iterative solvers).

    Only statements and concrete witnesses; proofs are in Solver*Proof and CgProof. *)
From Coq Require Import QArith Qcanon Lqa.
From Verif Require Import Base Scalar Spec DenseModel Observe CrsModel CrsObserve CrsProof CrsSimProof CrsMiscProof SolverModel SolverSpec
  SolverProof SolverSorProof SolverProof2 CgProof.
Local Open Scope nat_scope.
(** the sequential schedule, for concrete examples *)
Local Existing Instance one_thread.
Local Existing Instances Qcscalar b64scalar.

(** ** C34: CG and BiCGSTAB, exact arithmetic (whatever division and square root do).
    [represents A n M] : blas::matvec(A, .) is multiplication by the n x n matrix M;
    [pre_ok]           : the preconditioner runs; what it computes does not matter. *)
Theorem C34_cg_exact {F} {SF : Scalar F} (c : cfg (F:=F)) (A : matif (F:=F)) n M pre (x b : list F) li lr :
  exact SF -> represents A n M -> pre_ok A n pre -> s_lib c = 0 -> s_method c = 0 ->
  length x = n -> length b = n ->
  exists o, cg_solve c A pre x b li lr = Ok o /\ length (o_x o) = n /\
    o_resid o = norm2 n (residual n M (o_x o) b) /\ code_honest c o /\ o_code o <> BREAKDOWN.
Proof.
  intros. destruct (@cg_solve_good F SF c A n M pre x b li lr) as (o & E & (G1 & G2 & G3) & G4); auto.
  exists o. auto.
Qed.
Print Assumptions C34_cg_exact.

Theorem C34_bicgstab_exact {F} {SF : Scalar F} (c : cfg (F:=F)) (A : matif (F:=F)) n M pre (x b : list F) li lr :
  exact SF -> represents A n M -> pre_ok A n pre -> s_lib c = 0 -> s_method c = 0 ->
  length x = n -> length b = n ->
  exists o, bicgstab_solve c A pre x b li lr = Ok o /\ length (o_x o) = n /\
    o_resid o = norm2 n (residual n M (o_x o) b) /\ code_honest c o.
Proof.
  intros. destruct (@bicgstab_solve_good F SF c A n M pre x b li lr) as (o & E & G1 & G2 & G3); auto.
  exists o. auto.
Qed.
Print Assumptions C34_bicgstab_exact.

(** In every arithmetic (so also in floating point) the code, get_final_iter() and
    get_final_residual() agree with each other. *)
Theorem C34_code_consistent {F} {SF : Scalar F} (c : cfg (F:=F)) (A : matif (F:=F)) pre (x b : list F) li lr o :
  s_lib c = 0 ->
  (cg_solve c A pre x b li lr = Ok o -> code_honest c o /\ o_code o <> BREAKDOWN) /\
  (bicgstab_solve c A pre x b li lr = Ok o -> code_honest c o).
Proof. intros H. split; intros E; [eapply cg_solve_honest|eapply bicg_solve_honest]; eauto. Qed.
Print Assumptions C34_code_consistent.

(** The hypotheses hold for the two matrix formats and the library's preconditioners. *)
Theorem C34_formats {F} {SF : Scalar F} n : exact SF ->
  (forall A : crs F, crs_readable A -> m_row A = n -> m_col A = n -> represents (crs_if A) n (summed (crs_entries A))) /\
  (forall A : dense F, dense_ok A -> d_row A = n -> d_col A = n -> represents (dense_if A) n (dense_fn A)) /\
  (forall A : matif (F:=F), pre_ok A n pc_none) /\
  (forall (A : matif (F:=F)) M, represents A n M -> has_diag A n M -> pre_ok A n pc_jacobi) /\
  (forall (A : crs F) omega, crs_ok A -> m_first A = 0 -> m_row A = n -> m_col A = n -> nodup_pos (crs_entries A) ->
     pre_ok (crs_if A) n (pc_sor omega (sor_precond_crs A))).
Proof.
  intros Hex. split; [intros; now apply crs_represents|]. split; [intros; now apply dense_represents|].
  split; [|split].
  - intros A. eexists. split; [reflexivity|]. intros r z Hr Hz. rewrite (@v_copy_ok F n) by auto. eauto.
  - intros A M (R1 & R2 & _) HD. unfold pre_ok, pc_jacobi. rewrite R1, R2, Nat.eqb_refl. cbn [require_ bind].
    assert (Hz : length (repeat (f0 (Scalar:=SF)) n) = n) by now rewrite repeat_length.
    destruct (HD _ Hz) as (d & E & Hd & _). eexists. rewrite E. cbn [bind].
    rewrite (@v_recip_ok F SF n) by auto. cbn [bind]. split; [reflexivity|]. intros r z Hr Hzz.
    rewrite (@v_mul_ok F SF n) by (auto; now rewrite map_length). eexists; split; [reflexivity|].
    now rewrite zipw_length, map_length.
  - intros A omega W Hf Hr Hc Hn. pose proof (crs_has_diag Hex W Hf Hr Hc Hn) as HD.
    unfold pre_ok, pc_sor. cbn [crs_if mi_row mi_col]. rewrite Hr, Hc, Nat.eqb_refl. cbn [require_ bind].
    assert (Hz : length (repeat (f0 (Scalar:=SF)) n) = n) by now rewrite repeat_length.
    destruct (HD _ Hz) as (d & E & Hd & _). eexists. rewrite E. cbn [bind].
    rewrite (@v_recip_ok F SF n) by (unfold v_scal; rewrite ?map_length; auto). cbn [bind]. split; [reflexivity|].
    intros r z Hrr Hzz.
    destruct (@sor_precond_crs_ok F SF Hex A n (map (fun v => fdiv f1 v) (v_scal omega d)) z r) as (y & t & E2 & _ & Ht & _); auto.
    + unfold v_scal. now rewrite !map_length.
    + exists t. auto.
Qed.
Print Assumptions C34_formats.

(** Non-vacuity: [[4,1],[1,3]] x = (1,2) from x = (2,1), over the rationals: CG stops after 2
    iterations at (1/11, 7/11); BiCGSTAB with Jacobi preconditioner and tolerance 1/2 (on the squared
    norm: over the rationals the model's sqrt is the identity) after 1. *)
Definition q (z : Z) : Qc := Q2Qc (z # 1).
Definition qcfg : cfg (F:=Qc) := mkCfg 0 (Q2Qc (1 # 1000000)) 0 10 0 (q 1).
Definition qcfg2 : cfg (F:=Qc) := mkCfg 0 (Q2Qc (1 # 2)) 0 10 0 (q 1).
Example C34_example :
  exists A o1 o2, crs_of_arrays 2 2 4 [0;2;4] [0;1;0;1] [q 4; q 1; q 1; q 3] = Ok A /\ crs_readable A /\
    cg_solve qcfg (crs_if A) pc_none [q 2; q 1] [q 1; q 2] 0 (q 0) = Ok o1 /\
    bicgstab_solve qcfg2 (crs_if A) pc_jacobi [q 2; q 1] [q 1; q 2] 0 (q 0) = Ok o2 /\
    o_code o1 = SUCCESS /\ o_iter o1 = 2 /\ map this (o_x o1) = [1 # 11; 7 # 11]%Q /\
    o_code o2 = SUCCESS /\ o_iter o2 = 1 /\ map this (o_x o2) = [129544 # 659895; 400718 # 659895]%Q.
Proof.
  do 3 eexists. split; [vm_compute; reflexivity|]. split.
  { apply crs_ok_readable. unfold crs_ok, rpn, cin; cbn.
    repeat split; auto; intros i Hi; destruct i as [|[|[|[|i]]]]; cbn; lia. }
  split; [vm_compute; reflexivity|]. split; [vm_compute; reflexivity|].
  repeat split; vm_compute; reflexivity.
Qed.

(** ** C34 in IEEE double arithmetic: false.  3 x = 1 from x = 2^60: CG reports SUCCESS with final
    residual 0 and returns x = 0, whose residual is 1 (tol 1e-8). *)
Definition t8 : b64 := fdiv (b64_of_Z 1) (b64_of_Z 100000000).
Definition bcfg : cfg (F:=b64) := mkCfg 0 t8 0 10 0 (b64_of_Z 1).
Theorem C34_cg_float_refuted :
  exists A x, dense_of_array 1 1 [b64_of_Z 3] = Ok A /\ x = [b64_of_Z 0] /\
    cg_solve bcfg (dense_if A) pc_none [b64_big] [b64_of_Z 1] 0 (b64_of_Z 0) =
      Ok (mkOut SUCCESS x 1 (b64_of_Z 0)) /\
    get_residual_l2 (dense_if A) x [b64_of_Z 1] = Ok (b64_of_Z 1) /\
    fltb (b64_of_Z 1) t8 = false.
Proof.
  do 2 eexists. split; [vm_compute; reflexivity|]. split; [vm_compute; reflexivity|].
  repeat split; vm_compute; reflexivity.
Qed.
Print Assumptions C34_cg_float_refuted.

(** diag(3,7) x = (1,1) from (2^60, -2^60): BiCGSTAB reports SUCCESS with final residual 0; the
    residual of the returned x is above 700. *)
Theorem C34_bicgstab_float_refuted :
  exists A o r, dense_of_array 2 2 (map b64_of_Z [3;0;0;7]%Z) = Ok A /\
    bicgstab_solve bcfg (dense_if A) pc_none [b64_big; fopp b64_big] (map b64_of_Z [1;1]%Z) 0 (b64_of_Z 0) = Ok o /\
    o_code o = SUCCESS /\ o_resid o = b64_of_Z 0 /\
    get_residual_l2 (dense_if A) (o_x o) (map b64_of_Z [1;1]%Z) = Ok r /\ fltb (b64_of_Z 700) r = true.
Proof.
  do 3 eexists. split; [vm_compute; reflexivity|]. split; [vm_compute; reflexivity|]. split; [vm_compute; reflexivity|].
  split; [vm_compute; reflexivity|]. split; vm_compute; reflexivity.
Qed.
Print Assumptions C34_bicgstab_float_refuted.

(** With set_lib(k), k <> 0, every solver returns 0 = SUCCESS without touching x; so does none::solve. *)
Theorem C34_other_lib_refuted {F} {SF : Scalar F} (c : cfg (F:=F)) (A : matif (F:=F)) lower pre (x b : list F) li lr :
  s_lib c <> 0 ->
  cg_solve c A pre x b li lr = Ok (mkOut SUCCESS x li lr) /\
  bicgstab_solve c A pre x b li lr = Ok (mkOut SUCCESS x li lr) /\
  jacobi_solve c A pre x b li lr = Ok (mkOut SUCCESS x li lr) /\
  sor_solve c A lower pre x b li lr = Ok (mkOut SUCCESS x li lr) /\
  none_solve x li lr = Ok (mkOut SUCCESS x li lr).
Proof.
  intros H. unfold cg_solve, bicgstab_solve, jacobi_solve, sor_solve, none_solve.
  destruct (s_lib c) eqn:E; [congruence|]. repeat split.
Qed.
Print Assumptions C34_other_lib_refuted.

(** non-square matrices are rejected *)
Theorem C34_nonsquare {F} {SF : Scalar F} (c : cfg (F:=F)) (A : matif (F:=F)) lower pre (x b : list F) li lr :
  s_lib c = 0 -> mi_row A <> mi_col A ->
  cg_solve c A pre x b li lr = Throw /\ bicgstab_solve c A pre x b li lr = Throw /\
  jacobi_solve c A pre x b li lr = Throw /\ sor_solve c A lower pre x b li lr = Throw.
Proof.
  intros Hl H. unfold cg_solve, bicgstab_solve, jacobi_solve, sor_solve. rewrite Hl.
  unfold monolish_cg, monolish_bicgstab, monolish_jacobi, monolish_sor.
  rewrite (proj2 (Nat.eqb_neq _ _) H). repeat split.
Qed.
Print Assumptions C34_nonsquare.

(** ** C35: Jacobi and SOR: false.  [[1,3],[3,1]] x = (4,4) from (1,2), whose relative residual
    0.56 is below the tolerance 1: the update that follows the test takes x out of the tolerance
    (above 1.5) and SUCCESS is returned with it; final_resid is the residual of neither. *)
Definition tcfg : cfg (F:=b64) := mkCfg 0 (b64_of_Z 1) 0 10 0 (b64_of_Z 1).
Theorem C35_jacobi_sor_refuted :
  exists A b x0 o1 o2 r1 r2,
    dense_of_array 2 2 (map b64_of_Z [1;3;3;1]%Z) = Ok A /\
    b = map b64_of_Z [4;4]%Z /\ x0 = [b64_of_Z 1; b64_of_Z 2] /\
    jacobi_solve tcfg (dense_if A) pc_none x0 b 0 (b64_of_Z 0) = Ok o1 /\
    o_code o1 = SUCCESS /\ get_residual_l2 (dense_if A) (o_x o1) b = Ok r1 /\
    fltb (fmul r1 (fdiv (b64_of_Z 1) (b64_of_Z 6))) (s_tol tcfg) = false /\
    sor_solve tcfg (dense_if A) (sor_lower_dense A) pc_none x0 b 0 (b64_of_Z 0) = Ok o2 /\
    o_code o2 = SUCCESS /\ get_residual_l2 (dense_if A) (o_x o2) b = Ok r2 /\
    fltb (fmul r2 (fdiv (b64_of_Z 1) (b64_of_Z 6))) (s_tol tcfg) = false /\
    o_resid o1 <> r1 /\ o_resid o2 <> r2.
Proof.
  do 7 eexists. split; [vm_compute; reflexivity|]. split; [reflexivity|]. split; [reflexivity|].
  split; [vm_compute; reflexivity|]. split; [vm_compute; reflexivity|]. split; [vm_compute; reflexivity|].
  split; [vm_compute; reflexivity|]. split; [vm_compute; reflexivity|]. split; [vm_compute; reflexivity|].
  split; [vm_compute; reflexivity|]. split; [vm_compute; reflexivity|].
  split; vm_compute; discriminate.
Qed.
Print Assumptions C35_jacobi_sor_refuted.

(** What SUCCESS does tell (exact arithmetic): the iterate xp BEFORE the last update met the
    tolerance, and the returned x is xp plus one more Jacobi / SOR correction. *)
Theorem C35_jacobi_partial {F} {SF : Scalar F} (c : cfg (F:=F)) (A : matif (F:=F)) n M pre (x b : list F) li lr :
  exact SF -> represents A n M -> has_diag A n M -> pre_ok A n pre -> s_lib c = 0 -> s_method c = 0 ->
  length x = n -> length b = n ->
  exists o, jacobi_solve c A pre x b li lr = Ok o /\ length (o_x o) = n /\ o_iter o <= s_maxiter c /\
    (o_code o = SUCCESS -> s_miniter c <= o_iter o /\ 1 <= o_iter o /\
       exists xp t, length xp = n /\ length t = n /\
         fltb (fmul (norm2 n (residual n M xp b)) (fdiv f1 (norm2 n (fn b)))) (s_tol c) = true /\
         (forall i, i < n -> fn t i = fmul (residual n M xp b i) (fdiv f1 (M i i))) /\
         (forall i, i < n -> fn (o_x o) i = fadd (fn xp i) (fn t i)) /\
         o_resid o = norm2 n (fn t)).
Proof.
  intros Hex HA HD Hp Hl Hm Hx Hb.
  destruct (@jacobi_solve_ok F SF Hex c A n M b HA HD Hm Hb pre x li lr) as (o & E & H1 & H2 & H3); auto.
  exists o. split; auto. split; auto. split; auto. intros Hs. destruct (H3 Hs) as (G1 & G2 & xp & t & G3 & G4 & G5 & G6 & G7 & G8).
  split; auto. split; auto. exists xp, t. repeat split; auto.
Qed.
Print Assumptions C35_jacobi_partial.

Theorem C35_sor_partial {F} {SF : Scalar F} (c : cfg (F:=F)) (A : matif (F:=F)) lower n M (x b : list F) li lr :
  exact SF -> represents A n M -> has_diag A n M -> s_lib c = 0 -> s_method c = 0 ->
  (forall d t r, length d = n -> length t = n -> length r = n ->
     exists t', lower d t r = Ok t' /\ length t' = n /\ solves_lower n M d r t') ->
  length x = n -> length b = n ->
  exists o, sor_solve c A lower pc_none x b li lr = Ok o /\ length (o_x o) = n /\ o_iter o <= s_maxiter c /\
    (o_code o = SUCCESS -> s_miniter c <= o_iter o /\ 1 <= o_iter o /\
       exists xp t, length xp = n /\ length t = n /\
         fltb (fmul (norm2 n (residual n M xp b)) (fdiv f1 (norm2 n (fn b)))) (s_tol c) = true /\
         (forall i, i < n -> fn t i =
            fmul (fsub (residual n M xp b i) (sum_n i (fun j => fmul (M i j) (fn t j))))
                 (fdiv f1 (fmul (fdiv f1 (s_omega c)) (M i i)))) /\
         (forall i, i < n -> fn (o_x o) i = fadd (fn xp i) (fn t i)) /\
         o_resid o = norm2 n (residual n M xp b)).
Proof.
  intros Hex HA HD Hl Hm Hlow Hx Hb.
  destruct (@sor_solve_ok F SF Hex c A n M b HA HD Hm Hb lower x li lr) as (o & d & E & H1 & H2 & Hd & Hdi & H3); auto.
  exists o. split; auto. split; auto. split; auto. intros Hs.
  destruct (H3 Hs) as (G1 & G2 & xp & t & G3 & G4 & (r & Hr & HR & HS) & G6 & G7 & G8).
  split; auto. split; auto. exists xp, t. split; auto. split; auto. split; auto. split; [|split; auto].
  intros i Hi. rewrite (HS i) by auto. rewrite HR, Hdi by auto. reflexivity.
Qed.
Print Assumptions C35_sor_partial.

(** non-vacuity: the hypotheses hold for Dense and for CRS with sorted rows, and a run that ends in
    SUCCESS (integers, tol 1: [[1,0],[2,1]] x = (1,4)) *)
Theorem C35_formats {F} {SF : Scalar F} n : exact SF ->
  (forall A : dense F, dense_ok A -> d_first A = 0 -> d_row A = n -> d_col A = n ->
     has_diag (dense_if A) n (dense_fn A) /\
     forall d t r, length d = n -> length t = n -> length r = n ->
       exists t', sor_lower_dense A d t r = Ok t' /\ length t' = n /\ solves_lower n (dense_fn A) d r t') /\
  (forall A : crs F, crs_ok A -> m_first A = 0 -> m_row A = n -> m_col A = n -> nodup_pos (crs_entries A) ->
     (forall i, i < n -> increasing (crs_row A i)) ->
     has_diag (crs_if A) n (summed (crs_entries A)) /\
     forall d t r, length d = n -> length t = n -> length r = n ->
       exists t', sor_lower_crs A d t r = Ok t' /\ length t' = n /\ solves_lower n (summed (crs_entries A)) d r t').
Proof.
  intros Hex. split.
  - intros A W Hf Hr Hc. split; [now apply dense_has_diag|]. intros. now apply sor_lower_dense_ok.
  - intros A W Hf Hr Hc Hn Hs. split; [now apply crs_has_diag|]. intros. now apply sor_lower_crs_ok.
Qed.
Print Assumptions C35_formats.

Definition zcfg : cfg (F:=Z) := mkCfg 0 1%Z 0 10 0 1%Z.
Example C35_example :
  exists A o1 o2, dense_of_array 2 2 [1;0;2;1]%Z = Ok A /\ dense_ok A /\ d_first A = 0 /\
    jacobi_solve zcfg (dense_if A) pc_none [0;0]%Z [1;4]%Z 0 0%Z = Ok o1 /\ o_code o1 = SUCCESS /\ o_x o1 = [1;4]%Z /\
    sor_solve zcfg (dense_if A) (sor_lower_dense A) pc_none [0;0]%Z [1;4]%Z 0 0%Z = Ok o2 /\ o_code o2 = SUCCESS /\ o_x o2 = [1;2]%Z.
Proof.
  do 3 eexists. split; [vm_compute; reflexivity|]. split; [vm_compute; repeat split; auto|]. repeat split; vm_compute; reflexivity.
Qed.

(** ** C36 the SOR kernels (exact arithmetic) *)
Theorem C36_sor_lower {F} {SF : Scalar F} n (D x b : list F) :
  exact SF -> length D = n -> length x = n -> length b = n ->
  (forall A : dense F, dense_ok A -> d_first A = 0 -> d_row A = n -> d_col A = n ->
     exists t, sor_lower_dense A D x b = Ok t /\ length t = n /\ solves_lower n (dense_fn A) D b t) /\
  (forall A : crs F, crs_ok A -> m_first A = 0 -> m_row A = n -> m_col A = n ->
     (forall i, i < n -> increasing (crs_row A i)) ->
     exists t, sor_lower_crs A D x b = Ok t /\ length t = n /\ solves_lower n (summed (crs_entries A)) D b t).
Proof.
  intros Hex HD Hx Hb. split; intros; [now apply sor_lower_dense_ok|now apply sor_lower_crs_ok].
Qed.
Print Assumptions C36_sor_lower.

(** With D[i] = omega / M[i][i] (a field, nothing zero) [solves_lower] is (D/omega + L) t = b. *)
Theorem C36_lower_is_triangular_system {F} {SF : Scalar F} n (M : nat -> nat -> F) (D b t : list F) :
  exact SF -> (forall i, i < n -> exists e, fmul e (fn D i) = f1 /\ M i i = e) -> solves_lower n M D b t ->
  forall i, i < n -> sum_n (S i) (fun j => fmul (M i j) (fn t j)) = fn b i.
Proof.
  intros Hex HD HS i Hi. destruct (HD i Hi) as (e & He & HM). cbn [sum_n]. rewrite HM.
  set (s := sum_n i _). rewrite (HS i Hi). fold s.
  pose proof (Radd_comm Hex) as AC. pose proof (Rmul_comm Hex) as MC. pose proof (Rmul_assoc Hex) as MA.
  pose proof (Rmul_1_l Hex) as M1. pose proof (Rsub_def Hex) as SD. pose proof (Radd_assoc Hex) as AA.
  pose proof (Ropp_def Hex) as OD. pose proof (Radd_0_l Hex) as A0.
  rewrite (MC (fsub (fn b i) s) (fn D i)), MA, He, M1, SD. rewrite (AC (fn b i)), AA, OD, A0. reflexivity.
Qed.
Print Assumptions C36_lower_is_triangular_system.

(** the preconditioner kernel on CRS: a forward and a backward sweep (no order of the columns needed) *)
Theorem C36_sor_precond_crs {F} {SF : Scalar F} n (A : crs F) (D x b : list F) :
  exact SF -> crs_ok A -> m_first A = 0 -> m_row A = n -> m_col A = n -> length D = n -> length x = n -> length b = n ->
  exists y t, sor_precond_crs A D x b = Ok t /\ length y = n /\ length t = n /\
    solves_lower n (summed (crs_entries A)) D b y /\ solves_upper n (summed (crs_entries A)) D y t.
Proof. intros. now apply sor_precond_crs_ok. Qed.
Print Assumptions C36_sor_precond_crs.

(** CRS with unsorted rows: the loop stops at the first column that is not below the diagonal, the
    entries after it are ignored.  Row 1 = {(1,1),(0,5)}: x[1] = 7 instead of 7 - 5*1 = 2. *)
Theorem C36_sor_lower_unsorted_refuted :
  exists A, crs_of_arrays 2 2 3 [0;1;3] [0;1;0] [1;1;5]%Z = Ok A /\ crs_ok A /\
    sor_lower_crs A [1;1]%Z [0;0]%Z [1;7]%Z = Ok [1;7]%Z /\
    ~ solves_lower 2 (summed (crs_entries A)) [1;1]%Z [1;7]%Z [1;7]%Z.
Proof.
  eexists. split; [vm_compute; reflexivity|]. split.
  { unfold crs_ok, rpn, cin; cbn. repeat split; auto; intros i Hi; destruct i as [|[|[|[|i]]]]; cbn; lia. }
  split; [vm_compute; reflexivity|]. intros H. specialize (H 1 ltac:(lia)). vm_compute in H. discriminate H.
Qed.
Print Assumptions C36_sor_lower_unsorted_refuted.

(** the preconditioner kernel on Dense reads x[N], outside the vector, for every matrix *)
Theorem C36_sor_precond_dense_refuted {F} {SF : Scalar F} n (A : dense F) (D x b : list F) :
  dense_ok A -> d_first A = 0 -> d_row A = n -> d_col A = n -> 1 <= n -> length D = n -> length x = n -> length b = n ->
  sor_precond_dense A D x b = UB.
Proof. intros W Hf Hr Hc. now apply sor_precond_dense_ub. Qed.
Print Assumptions C36_sor_precond_dense_refuted.

Example C36_example :
  exists A, crs_of_arrays 2 2 4 [0;2;4] [0;1;0;1] [1;2;3;1]%Z = Ok A /\ crs_ok A /\
    (forall i, i < 2 -> increasing (crs_row A i)) /\
    sor_lower_crs A [1;1]%Z [0;0]%Z [1;7]%Z = Ok [1;4]%Z /\
    sor_precond_crs A [1;1]%Z [0;0]%Z [1;7]%Z = Ok [-7;4]%Z.
Proof.
  eexists. split; [vm_compute; reflexivity|]. split.
  { unfold crs_ok, rpn, cin; cbn. repeat split; auto; intros i Hi; destruct i as [|[|[|[|i]]]]; cbn; lia. }
  split; [|split; vm_compute; reflexivity].
  intros i Hi. unfold increasing. destruct i as [|[|i]]; [| |lia]; vm_compute; repeat constructor.
Qed.

(** ** C37 util::solver_check: false - no code makes it throw or return true *)
Theorem C37_solver_check_refuted (err : Z) : solver_check err = Ok false.
Proof. unfold solver_check. repeat match goal with |- (if ?b then _ else _) = _ => destruct b end; reflexivity. Qed.
Print Assumptions C37_solver_check_refuted.

(** util::get_residual_l2(A, x, y) = ||y - A x|| (square matrix, exact arithmetic) *)
Theorem C37_get_residual_l2 {F} {SF : Scalar F} (A : matif (F:=F)) n M (x y : list F) :
  exact SF -> represents A n M -> length x = n -> length y = n ->
  get_residual_l2 A x y = Ok (norm2 n (residual n M x y)).
Proof.
  intros Hex (R1 & R2 & R3) Hx Hy. unfold get_residual_l2. rewrite Hx.
  destruct (R3 x (repeat f0 n)) as (q' & -> & Hq & HQ); [auto|now rewrite repeat_length|]. cbn [bind].
  rewrite (@v_sub_ok F SF n) by auto. cbn [bind].
  rewrite (@v_nrm2_exact F SF Hex n) by now rewrite zipw_length. f_equal. apply norm2_ext.
  intros i Hi. rewrite zipw_fn by lia. now rewrite HQ.
Qed.
Print Assumptions C37_get_residual_l2.

(** ... and on a rectangular CRS matrix it aborts: the work vector has length x.size(), not rows *)
Theorem C37_get_residual_l2_rect_refuted {F} {SF : Scalar F} (A : crs F) (x y : list F) :
  m_row A <> length x -> get_residual_l2 (crs_if A) x y = Abort.
Proof.
  intros H. unfold get_residual_l2. cbn [crs_if mi_vec]. unfold crs_matvec, crs_matvec_core.
  rewrite repeat_length, (proj2 (Nat.eqb_neq _ _) H). reflexivity.
Qed.
Print Assumptions C37_get_residual_l2_rect_refuted.

(** ** C49 a start at the exact solution (or reaching it exactly) must not damage x: false in IEEE double.
    2 x = 2 from x = 1: CG computes 0/0 and returns NaN in x;
    3 x = 1 from x = 2^60 with BiCGSTAB: s becomes exactly 0, omega = 0/0, x = NaN;
    Jacobi with b = 0, x = 0: code NaN (1/||b|| = inf, 0 * inf). *)
Theorem C49_exact_start_refuted :
  exists A B o1 o2 o3,
    dense_of_array 1 1 [b64_of_Z 2] = Ok A /\ dense_of_array 1 1 [b64_of_Z 3] = Ok B /\
    cg_solve bcfg (dense_if A) pc_none [b64_of_Z 1] [b64_of_Z 2] 0 (b64_of_Z 0) = Ok o1 /\
    o_code o1 = RESIDUAL_NAN /\ map fnan (o_x o1) = [true] /\
    bicgstab_solve bcfg (dense_if B) pc_none [b64_big] [b64_of_Z 1] 0 (b64_of_Z 0) = Ok o2 /\
    o_code o2 = RESIDUAL_NAN /\ map fnan (o_x o2) = [true] /\
    jacobi_solve bcfg (dense_if A) pc_none [b64_of_Z 0] [b64_of_Z 0] 0 (b64_of_Z 0) = Ok o3 /\ o_code o3 = RESIDUAL_NAN.
Proof.
  do 5 eexists. split; [vm_compute; reflexivity|]. split; [vm_compute; reflexivity|].
  split; [vm_compute; reflexivity|]. split; [vm_compute; reflexivity|]. split; [vm_compute; reflexivity|].
  split; [vm_compute; reflexivity|]. split; [vm_compute; reflexivity|]. split; [vm_compute; reflexivity|].
  split; vm_compute; reflexivity.
Qed.
Print Assumptions C49_exact_start_refuted.

(** BiCGSTAB never touches x when it starts at the solution: it reports BREAKDOWN after one iteration
    (any arithmetic in which the computed r.r compares equal to 0) *)
Theorem C49_bicgstab_start_partial {F} {SF : Scalar F} (c : cfg (F:=F)) (A : matif (F:=F)) n M pre (x b : list F) li lr :
  exact SF -> represents A n M -> pre_ok A n pre -> s_lib c = 0 -> s_method c = 0 -> 1 <= s_maxiter c ->
  length x = n -> length b = n -> feqb (f0 (Scalar:=SF)) f0 = true ->
  (forall i, i < n -> mv n M (fn x) i = fn b i) ->
  exists o, bicgstab_solve c A pre x b li lr = Ok o /\ o_code o = BREAKDOWN /\ o_x o = x /\ o_iter o = 1.
Proof.
  intros Hex (R1 & R2 & R3) (f & Ef & Hpf) Hl Hm Hmx Hx Hb Heq HAx. unfold bicgstab_solve. rewrite Hl. unfold monolish_bicgstab.
  rewrite R1, R2, Nat.eqb_refl. cbn [require_ bind]. rewrite Ef. cbn [bind].
  destruct (R3 x (repeat f0 n)) as (q' & -> & Hq & HQ); [auto|now rewrite repeat_length|]. cbn [bind].
  rewrite (@v_sub_ok F SF n) by auto. cbn [bind].
  set (r := zipw fsub b q'). assert (Hr : length r = n) by (unfold r; now rewrite zipw_length).
  assert (Z : forall i, i < n -> fn r i = f0).
  { intros i Hi. unfold r. rewrite zipw_fn by lia. rewrite HQ, HAx by auto. rewrite (Rsub_def Hex). apply (Ropp_def Hex). }
  rewrite (@v_copy_ok F n) by (auto; now rewrite repeat_length). cbn [bind].
  destruct (s_maxiter c) as [|k]; [lia|]. cbn [bicg_loop b_r b_x].
  rewrite (@v_dot_exact F SF Hex n) by auto. cbn [bind].
  assert (E0 : dotp n (fn r) (fn r) = f0) by (now apply (D_zeros Hex)).
  rewrite E0, Heq. unfold get_residual. rewrite Hm, (@v_nrm2_exact F SF Hex n) by auto. cbn [bind].
  eexists. repeat split.
Qed.
Print Assumptions C49_bicgstab_start_partial.

(** In exact field arithmetic BiCGSTAB cannot reach an exact solution at the half step either: [[2]] x = 2
    from 0 ends in BREAKDOWN with x unchanged, although A is non-singular. *)
Theorem C49_bicgstab_halfstep_refuted :
  exists A o, dense_of_array 1 1 [q 2] = Ok A /\
    bicgstab_solve qcfg (dense_if A) pc_none [q 0] [q 2] 0 (q 0) = Ok o /\
    o_code o = BREAKDOWN /\ map this (o_x o) = [0 # 1]%Q.
Proof. do 2 eexists. split; [vm_compute; reflexivity|]. split; [vm_compute; reflexivity|]. split; vm_compute; reflexivity. Qed.
Print Assumptions C49_bicgstab_halfstep_refuted.

(** ** C50 CG converges: exact field arithmetic, A symmetric and definite, no preconditioner: SUCCESS
    after at most max(n, miniter, 1) iterations, and the true residual of the returned x is below tol. *)
Theorem C50_cg_terminates {F} {SF : Scalar F} (c : cfg (F:=F)) (A : matif (F:=F)) n M (x b : list F) li lr :
  exact SF -> field_arith -> represents A n M -> symmetric n M -> definite n M ->
  s_lib c = 0 -> s_method c = 0 -> fltb (fsqrt f0) (s_tol c) = true ->
  1 <= s_maxiter c -> n <= s_maxiter c -> s_miniter c <= s_maxiter c ->
  length x = n -> length b = n ->
  exists o, cg_solve c A pc_none x b li lr = Ok o /\ o_code o = SUCCESS /\
    o_iter o <= Nat.max 1 (Nat.max n (s_miniter c)) /\
    o_resid o = norm2 n (residual n M (o_x o) b) /\
    fltb (norm2 n (residual n M (o_x o) b)) (s_tol c) = true.
Proof.
  intros Hex Hf HA Hs Hd Hl Hm Ht H1 H2 H3 Hx Hb.
  destruct (@cg_finite F SF Hex Hf n M Hs Hd c A HA Hm Ht) with (x := x) (b := b) (li := li) (lr := lr) as (o & E & Hc & Hi); auto.
  destruct (@C34_cg_exact F SF c A n M pc_none x b li lr) as (o' & E' & _ & Hr & Hh & _); auto.
  { now apply (C34_formats n). }
  rewrite E in E'. inversion E'; subst o'. exists o. split; auto. split; auto. split; auto. split; auto.
  rewrite <- Hr. destruct Hh as [(_ & G & _)|[(G & _)|[(G & _)|(G & _)]]]; auto; rewrite Hc in G; discriminate G.
Qed.
Print Assumptions C50_cg_terminates.

(** the hypotheses hold for [[2,1],[1,2]] over the rationals *)
Definition M2 (i j : nat) : Qc := if i =? j then q 2 else q 1.
Lemma sq_zero (a b : Qc) : (a * a + b * b = 0)%Qc -> a = 0%Qc /\ b = 0%Qc.
Proof.
  intros H. apply (f_equal this) in H. cbn [this Qcplus Qcmult Q2Qc] in H.
  assert (G : (this a * this a + this b * this b == 0)%Q).
  { rewrite <- (Qred_correct (this a * this a)), <- (Qred_correct (this b * this b)).
    rewrite <- (Qred_correct (Qred _ + Qred _)). rewrite H. reflexivity. }
  split; apply Qc_is_canon; change (this 0%Qc) with 0%Q; nra.
Qed.
Lemma sq_zero3 (a b : Qc) : (a * a + b * b + (a + b) * (a + b) = 0)%Qc -> a = 0%Qc /\ b = 0%Qc.
Proof.
  intros H. apply (f_equal this) in H. cbn [this Qcplus Qcmult Q2Qc] in H.
  assert (G : (this a * this a + this b * this b + (this a + this b) * (this a + this b) == 0)%Q).
  { transitivity (Qred (Qred (Qred (this a * this a) + Qred (this b * this b)) + Qred (Qred (this a + this b) * Qred (this a + this b))))%Q.
    - rewrite !Qred_correct. reflexivity.
    - rewrite H. reflexivity. }
  assert (N : forall z : Q, (0 <= z * z)%Q) by (intros z; nra).
  pose proof (N (this a)). pose proof (N (this b)). pose proof (N (this a + this b)%Q).
  assert (Ga : (this a * this a == 0)%Q) by lra. assert (Gb : (this b * this b == 0)%Q) by lra.
  split; apply Qc_is_canon; change (this 0%Qc) with 0%Q;
    [destruct (Qmult_integral _ _ Ga)|destruct (Qmult_integral _ _ Gb)]; auto.
Qed.
Example C50_example :
  exact Qcscalar /\ field_arith (SF:=Qcscalar) /\ symmetric 2 M2 /\ definite 2 M2 /\
  (exists A, dense_of_array 2 2 [q 2; q 1; q 1; q 2] = Ok A /\ dense_ok A /\
     (forall i j, i < 2 -> j < 2 -> dense_fn A i j = M2 i j)) /\
  fltb (fsqrt f0) (s_tol qcfg) = true.
Proof.
  split; [exact Qc_exact|]. split.
  { split; [|split]; cbn.
    - intros a b Hb. unfold Qcdiv. rewrite <- Qcmult_assoc, (Qcmult_comm (/ b)), Qcmult_inv_r by auto. apply Qcmult_1_r.
    - intros a b. destruct (a ?= b)%Qc eqn:E.
      + apply Qceq_alt in E. tauto.
      + split; [discriminate|]. intros ->. apply Qclt_alt in E. now apply Qclt_not_eq in E.
      + split; [discriminate|]. intros ->. apply Qcgt_alt in E. now apply Qclt_not_eq in E.
    - auto. }
  split. { intros i j _ _. unfold M2. rewrite Nat.eqb_sym. reflexivity. }
  split.
  { intros v [H|H] i Hi; unfold dotp, mv, sum_n, M2 in H; cbn [fadd fmul f0 Qcscalar Nat.eqb] in H.
    - destruct (@sq_zero (v 0) (v 1)) as [A B]; [rewrite <- H; ring|]. destruct i as [|[|i]]; auto. lia.
    - assert (G : ((v 0%nat * v 0%nat + v 1%nat * v 1%nat) + (v 0%nat + v 1%nat) * (v 0%nat + v 1%nat) = 0)%Qc).
      { rewrite <- H. change (q 2) with (1 + 1)%Qc. change (q 1) with 1%Qc. ring. }
      destruct (@sq_zero3 (v 0) (v 1)) as [A B]; [exact G|]. destruct i as [|[|i]]; auto. lia. }
  split; [|reflexivity].
  eexists. split; [vm_compute; reflexivity|]. split; [vm_compute; repeat split; auto|].
  intros i j Hi Hj. destruct i as [|[|i]], j as [|[|j]]; try lia; reflexivity.
Qed.

(** ** C51 set_maxiter only cuts a run short: any arithmetic, all four solvers *)
Theorem C51_limit_only_cuts {F} {SF : Scalar F} (c : cfg (F:=F)) (A : matif (F:=F)) lower pre (x b : list F) li lr :
  s_lib c = 0 ->
  limit_only_cuts (fun c => cg_solve c A pre x b li lr) c /\
  limit_only_cuts (fun c => bicgstab_solve c A pre x b li lr) c /\
  (s_method c = 0 -> limit_only_cuts (fun c => jacobi_solve c A pre x b li lr) c) /\
  (s_method c = 0 -> limit_only_cuts (fun c => sor_solve c A lower pre x b li lr) c).
Proof.
  intros H. split; [now apply cg_limit|]. split; [now apply bicg_limit|].
  split; intros Hm; [now apply jacobi_limit|now apply sor_limit].
Qed.
Print Assumptions C51_limit_only_cuts.

Example C51_example :
  exists A, dense_of_array 2 2 [q 4; q 1; q 1; q 3] = Ok A /\
    forall m, exists o, cg_solve (with_maxiter qcfg m) (dense_if A) pc_none [q 2; q 1] [q 1; q 2] 0 (q 0) = Ok o /\
      o_code o = (if m <? 2 then MAXITER else SUCCESS).
Proof.
  eexists. split; [vm_compute; reflexivity|]. intros m.
  match goal with |- context [dense_if ?A] => set (D := A) end.
  assert (G : exists o, cg_solve (with_maxiter qcfg 2) (dense_if D) pc_none [q 2; q 1] [q 1; q 2] 0 (q 0) = Ok o /\
     o_code o = SUCCESS /\ o_iter o = 2).
  { eexists. split; [vm_compute; reflexivity|]. split; vm_compute; reflexivity. }
  destruct G as (o & E & Hc & Hi).
  destruct (@C51_limit_only_cuts Qc _ qcfg (dense_if D) (fun _ _ _ => UB) pc_none [q 2; q 1] [q 1; q 2] 0 (q 0) eq_refl) as (L & _).
  destruct (L 2 o E) as (_ & L2). { rewrite Hc. discriminate. }
  destruct (L2 m) as (G1 & G2). destruct (Nat.ltb_spec m 2) as [Hlt|Hge].
  - apply G2. lia.
  - exists o. split; auto. apply G1. lia.
Qed.

(** ** C52 what the preconditioners compute: none: z = r; Jacobi: z[i] = r[i] / A(i,i); SOR on CRS: with
    D[i] = 1 / (omega A(i,i)), a forward then a backward substitution; non-square matrices are rejected *)
Theorem C52_preconditioners {F} {SF : Scalar F} n : exact SF ->
  (forall (A : matif (F:=F)) r z, length r = n -> length z = n ->
     exists f, pc_none A = Ok f /\ f r z = Ok r) /\
  (forall (A : matif (F:=F)) M r z, mi_row A = n -> mi_col A = n -> has_diag A n M -> length r = n -> length z = n ->
     exists f z', pc_jacobi A = Ok f /\ f r z = Ok z' /\ length z' = n /\
       forall i, i < n -> fn z' i = (f1 / M i i * fn r i)%F) /\
  (forall (A : crs F) omega r z, crs_ok A -> m_first A = 0 -> m_row A = n -> m_col A = n -> nodup_pos (crs_entries A) ->
     length r = n -> length z = n ->
     exists f D y z', pc_sor omega (sor_precond_crs A) (crs_if A) = Ok f /\ f r z = Ok z' /\ length z' = n /\
       (forall i, i < n -> fn D i = (f1 / (omega * summed (crs_entries A) i i))%F) /\
       solves_lower n (summed (crs_entries A)) D r y /\ solves_upper n (summed (crs_entries A)) D y z') /\
  (forall (A : matif (F:=F)) omega k, mi_row A <> mi_col A -> pc_jacobi A = Throw /\ pc_sor omega k A = Throw).
Proof.
  intros Hex. split; [|split; [|split]].
  - intros A r z Hr Hz. eexists. split; [reflexivity|]. now rewrite (@v_copy_ok F n) by auto.
  - intros A M r z R1 R2 HD Hr Hzz. unfold pc_jacobi. rewrite R1, R2, Nat.eqb_refl. cbn [require_ bind].
    assert (Hz : length (repeat (f0 (Scalar:=SF)) n) = n) by now rewrite repeat_length.
    destruct (HD _ Hz) as (d & E & Hd & Hv). eexists. eexists. rewrite E. cbn [bind].
    rewrite (@v_recip_ok F SF n) by auto. cbn [bind]. split; [reflexivity|].
    rewrite (@v_mul_ok F SF n) by (auto; now rewrite map_length). split; [reflexivity|].
    split; [now rewrite zipw_length, map_length|]. intros i Hi. rewrite zipw_fn by (rewrite map_length; lia).
    f_equal. unfold fn. rewrite (nth_indep _ _ (fdiv f1 f0)) by (rewrite map_length; lia).
    rewrite map_nth. f_equal. now apply Hv.
  - intros A omega r z W Hf Hr Hc Hn Hrr Hzz. pose proof (crs_has_diag Hex W Hf Hr Hc Hn) as HD.
    unfold pc_sor. cbn [crs_if mi_row mi_col]. rewrite Hr, Hc, Nat.eqb_refl. cbn [require_ bind].
    assert (Hz : length (repeat (f0 (Scalar:=SF)) n) = n) by now rewrite repeat_length.
    destruct (HD _ Hz) as (d & E & Hd & Hv). cbn [crs_if mi_diag] in *. rewrite E. cbn [bind].
    rewrite (@v_recip_ok F SF n) by (unfold v_scal; rewrite ?map_length; auto). cbn [bind].
    destruct (@sor_precond_crs_ok F SF Hex A n (map (fun v => fdiv f1 v) (v_scal omega d)) z r) as (y & t & E2 & Hy & Ht & S1 & S2); auto.
    { unfold v_scal. now rewrite !map_length. }
    eexists. exists (map (fun v => fdiv f1 v) (v_scal omega d)), y, t. split; [reflexivity|]. split; auto. split; auto.
    split; [|split; auto]. intros i Hi. unfold fn, v_scal. rewrite map_map.
    rewrite (nth_indep _ _ (fdiv f1 (fmul omega f0))) by (rewrite map_length; lia).
    rewrite (map_nth (fun v => fdiv f1 (fmul omega v))). f_equal. f_equal. now apply Hv.
  - intros A omega k H. apply Nat.eqb_neq in H. unfold pc_jacobi, pc_sor. rewrite H. split; reflexivity.
Qed.
Print Assumptions C52_preconditioners.
(** [[4,1],[1,3]] over the rationals: Jacobi maps r = (8, 9) to (2, 3) *)
Example C52_example : exists A f z, dense_of_array 2 2 [q 4; q 1; q 1; q 3] = Ok A /\ pc_jacobi (dense_if A) = Ok f /\
  f [q 8; q 9] [q 0; q 0] = Ok z /\ map this z = [2 # 1; 3 # 1]%Q.
Proof.
  eexists. eexists. eexists. split; [vm_compute; reflexivity|]. split; [reflexivity|]. split; vm_compute; reflexivity.
Qed.
