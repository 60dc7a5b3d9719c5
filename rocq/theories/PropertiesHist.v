(** * PropertiesHist: C117, the residual history that the iterative solvers print. *)
From Verif Require Import Base Scalar Spec DenseModel CooModel Observe SolverModel SolverSpec SolverProof SolverProof2 PropertiesSolver HistModel HistSpec HistProof HistProof2.
Set Implicit Arguments.

(** ** the four iterative solvers *)
Inductive method {F : Type} := CG | BiCGSTAB | Jacobi | SOR (lower : list F -> list F -> list F -> res (list F)).
Definition solve {F} {SF : Scalar F} (me : method) (c : cfg) (A : matif) (pre : precond) (x b : list F) li lr : res outcome :=
  match me with
  | CG => cg_solve c A pre x b li lr | BiCGSTAB => bicgstab_solve c A pre x b li lr
  | Jacobi => jacobi_solve c A pre x b li lr | SOR lower => sor_solve c A lower pre x b li lr
  end.
Definition solve_h {F} {SF : Scalar F} (me : method) (pr : bool) (c : cfg) (A : matif) (pre : precond) (x b : list F) li lr : res run :=
  match me with
  | CG => cg_solve_h pr c A pre x b li lr | BiCGSTAB => bicgstab_solve_h pr c A pre x b li lr
  | Jacobi => jacobi_solve_h pr c A pre x b li lr | SOR lower => sor_solve_h pr c A lower pre x b li lr
  end.
Definition krylov {F} (me : @method F) : Prop := me = CG \/ me = BiCGSTAB.

Section Hist.
Context {F : Type} {SF : Scalar F}.
Variables (me : @method F) (A : matif (F:=F)) (pre : precond (F:=F)) (x b : list F) (li : nat) (lr : F).

(** printing does not change what a solver returns, computes and reports *)
Theorem C117_printing_harmless pr c : solve me c A pre x b li lr = (oh <- solve_h me pr c A pre x b li lr ;; Ok (fst oh)).
Proof.
  destruct me as [| | |lower]; cbn [solve solve_h];
    unfold cg_solve, cg_solve_h, bicgstab_solve, bicgstab_solve_h, jacobi_solve, jacobi_solve_h, sor_solve, sor_solve_h;
    (destruct (s_lib c); [|reflexivity]);
    unfold monolish_cg, monolish_cg_h, monolish_bicgstab, monolish_bicgstab_h, monolish_jacobi, monolish_jacobi_h, monolish_sor, monolish_sor_h;
    repeat (match goal with |- bind ?m _ = bind (bind ?m _) _ => destruct m end; cbn [bind]; try reflexivity).
  - apply cg_erase. - apply bicg_erase. - apply jac_erase. - apply sor_erase.
Qed.

(** the solvers as instances of the generic loop of HistProof.v *)
Lemma view c : s_lib c = 0 -> exists (St : Type) (init : res St) step fx fr, step_ok c step /\ (krylov me -> step_resid c step fr) /\
  forall pr m, solve_h me pr (with_maxiter c m) A pre x b li lr = (st <- init ;; loop c step fx fr pr m m 0 st).
Proof.
  intros Hl.
  assert (Bad : forall e : res unit, (forall v, e <> Ok v) -> (forall pr m, solve_h me pr (with_maxiter c m) A pre x b li lr = (st <- e ;; Throw)) ->
    exists (St : Type) (init : res St) step fx fr, step_ok c step /\ (krylov me -> step_resid c step fr) /\
    forall pr m, solve_h me pr (with_maxiter c m) A pre x b li lr = (st <- init ;; loop c step fx fr pr m m 0 st)).
  { intros e He HE. exists unit, e, (fun _ _ => Throw), (fun _ => []), (fun _ => []). split; [intros ? ? ?; discriminate|]. split; [intros _ ? ? ?; discriminate|].
    intros pr m. rewrite HE. destruct e as [v| | | |]; try reflexivity. now destruct (He v). }
  destruct me as [| | |lower]; cbn [solve_h] in *;
    unfold cg_solve_h, bicgstab_solve_h, jacobi_solve_h, sor_solve_h in *; cbn [s_lib with_maxiter] in *; rewrite Hl in *;
    unfold monolish_cg_h, monolish_bicgstab_h, monolish_jacobi_h, monolish_sor_h in *; cbn [s_maxiter s_omega with_maxiter] in *.
  all: repeat match goal with |- context [bind ?m _] => destruct m; cbn [bind] in *;
      [|first [apply (Bad Throw); [discriminate|reflexivity]|apply (Bad Abort); [discriminate|reflexivity]|apply (Bad UB); [discriminate|reflexivity]|apply (Bad NoFuel); [discriminate|reflexivity]]..] end.
  - do 2 eexists. exists (cg_hstep c A a0), cx, cr. split; [apply cg_step_ok|]. split; [intros _; apply cg_step_ok|]. intros pr m. rewrite cg_loop_gen. instantiate (1 := Ok _). reflexivity.
  - do 2 eexists. exists (bicg_hstep c A a0 a3), (fun s => b_x s), (fun s => b_r s). split; [apply bicg_step_ok|]. split; [intros _; apply bicg_step_ok|]. intros pr m. rewrite bicg_loop_gen. instantiate (1 := Ok _). reflexivity.
  - do 2 eexists. exists (jac_hstep c A a3 b a2 (fdiv f1 a0)), sx, sr. split; [apply jac_step_ok|]. split; [intros [|]; discriminate|]. intros pr m. rewrite jac_loop_gen. instantiate (1 := Ok _). reflexivity.
  - do 2 eexists. exists (sor_hstep c A a3 lower b a1 (fdiv f1 a2)), sx, sr. split; [apply sor_step_ok|]. split; [intros [|]; discriminate|]. intros pr m. rewrite sor_loop_gen. instantiate (1 := Ok _). reflexivity.
Qed.

(** nothing is printed unless asked for, and nothing by calls that do nothing (any library number but 0) *)
Theorem C117_silent c o h : solve_h me false c A pre x b li lr = Ok (o, h) -> h = [].
Proof.
  destruct (Nat.eq_dec (s_lib c) 0) as [Hl|Hl].
  - destruct (view c Hl) as (St & init & step & fx & fr & S1 & S2 & V). replace c with (with_maxiter c (s_maxiter c)) at 1 by (destruct c; reflexivity). rewrite V.
    destruct init as [st0| | | |]; cbn [bind]; try discriminate. apply loop_silent.
  - destruct me; cbn [solve_h]; unfold cg_solve_h, bicgstab_solve_h, jacobi_solve_h, sor_solve_h; destruct (s_lib c); try lia; congruence.
Qed.
Theorem C117_other_lib pr c : s_lib c <> 0 -> solve_h me pr c A pre x b li lr = Ok (mkOut SUCCESS x li lr, []).
Proof. intros Hl. destruct me; cbn [solve_h]; unfold cg_solve_h, bicgstab_solve_h, jacobi_solve_h, sor_solve_h; destruct (s_lib c); try lia; reflexivity. Qed.

(** the history is consistent with the return code, final_iter, tolerance and miniter; any arithmetic, also floating point *)
Theorem C117_history c o h : s_lib c = 0 -> solve_h me true c A pre x b li lr = Ok (o, h) -> history_ok c o h.
Proof.
  intros Hl. destruct (view c Hl) as (St & init & step & fx & fr & S1 & S2 & V). replace c with (with_maxiter c (s_maxiter c)) at 1 by (destruct c; reflexivity). rewrite V.
  destruct init as [st0| | | |]; cbn [bind]; try discriminate. intros H. exact (@loop_history F SF St c step fx fr S1 _ _ _ _ _ _ H).
Qed.
(** a smaller limit prints a beginning of the history of a larger one *)
Theorem C117_begins c m1 m2 o1 h1 o2 h2 : s_lib c = 0 -> m1 <= m2 ->
  solve_h me true (with_maxiter c m1) A pre x b li lr = Ok (o1, h1) -> solve_h me true (with_maxiter c m2) A pre x b li lr = Ok (o2, h2) -> begins h1 h2.
Proof.
  intros Hl L. destruct (view c Hl) as (St & init & step & fx & fr & S1 & S2 & V). rewrite !V.
  destruct init as [st0| | | |]; cbn [bind]; try discriminate. now apply loop_begins.
Qed.
(** CG and BiCGSTAB: the value of line k is the final residual of the run with limit k ... *)
Theorem C117_krylov_lines c o h k : krylov me -> s_lib c = 0 -> solve_h me true c A pre x b li lr = Ok (o, h) -> 1 <= k <= length h ->
  exists o', solve me (with_maxiter c k) A pre x b li lr = Ok o' /\ nth_error h (k - 1) = Some (k, o_resid o').
Proof.
  intros Hk Hl. destruct (view c Hl) as (St & init & step & fx & fr & S1 & S2 & V). replace c with (with_maxiter c (s_maxiter c)) at 1 by (destruct c; reflexivity). rewrite V.
  intros H HK. rewrite (C117_printing_harmless true), V.
  destruct init as [st0| | | |]; cbn [bind] in *; try discriminate.
  destruct (@loop_line_run F SF St c step fx fr S1 (S2 Hk) _ _ _ _ _ _ _ H HK k) as (o' & E1 & E2). rewrite E1. cbn. eauto.
Qed.
(** ... and the last line is what get_final_residual reports, whatever the return code *)
Theorem C117_krylov_last c o h l : krylov me -> s_lib c = 0 -> solve_h me true c A pre x b li lr = Ok (o, h ++ [l]) -> snd l = o_resid o.
Proof.
  intros Hk Hl. destruct (view c Hl) as (St & init & step & fx & fr & S1 & S2 & V). replace c with (with_maxiter c (s_maxiter c)) at 1 by (destruct c; reflexivity). rewrite V.
  destruct init as [st0| | | |]; cbn [bind]; try discriminate. intros H. pose proof (@loop_last_gen F SF St c step fx fr (S2 Hk) _ _ _ _ _ _ H) as G. rewrite rev_app_distr in G. exact G.
Qed.
End Hist.

(** ** exact arithmetic: what the printed values are *)
Section Exact.
Context {F : Type} {SF : Scalar F}.
Variables (A : matif (F:=F)) (n : nat) (M : nat -> nat -> F) (x b : list F) (li : nat) (lr : F) (c : cfg (F:=F)).
Hypothesis Hex : exact SF.
Hypothesis HA : represents A n M.
Hypothesis Hl : s_lib c = 0.
Hypothesis Hm : s_method c = 0.
Hypothesis Hx : length x = n.
Hypothesis Hb : length b = n.

(** CG, BiCGSTAB: line k is the norm of the residual of the k-th iterate (what the run with limit k returns) *)
Theorem C117_krylov_exact me pre o h k : krylov me -> pre_ok A n pre ->
  solve_h me true c A pre x b li lr = Ok (o, h) -> 1 <= k <= length h ->
  exists o', solve me (with_maxiter c k) A pre x b li lr = Ok o' /\ nth_error h (k - 1) = Some (k, norm2 n (residual n M (o_x o') b)).
Proof.
  intros Hk Hp H HK. destruct (@C117_krylov_lines F SF me A pre x b li lr c o h k Hk Hl H HK) as (o' & E & ->). exists o'. split; auto. f_equal. f_equal.
  destruct Hk as [-> | ->]; cbn [solve] in E.
  - destruct (@C34_cg_exact F SF (with_maxiter c k) A n M pre x b li lr) as (o2 & E2 & _ & G & _); auto. congruence.
  - destruct (@C34_bicgstab_exact F SF (with_maxiter c k) A n M pre x b li lr) as (o2 & E2 & _ & G & _); auto. congruence.
Qed.

(** Jacobi, SOR: line k is the residual of the iterate BEFORE iteration k (what the run with limit k - 1 returns), divided by the norm of b *)
Definition len4 (st : sst (F:=F)) : Prop := let '(x, r, t, s) := st in length x = n /\ length r = n /\ length t = n /\ length s = n.
Lemma jac_line_step pre d bn iter st v : (forall r z, length r = n -> length z = n -> exists z', pre r z = Ok z' /\ length z' = n) -> length d = n ->
  len4 st -> jac_hstep c A pre b d bn iter st = Ok v ->
  match v with Halt _ _ None => True | Halt _ _ (Some w) => w = fmul (norm2 n (residual n M (sx st) b)) bn | Go st' w => w = fmul (norm2 n (residual n M (sx st) b)) bn /\ len4 st' end.
Proof.
  destruct st as [[[x0 r0] t0] s0]. intros Hp Hd (L1 & L2 & L3 & L4). cbn [jac_hstep sx].
  destruct (Hp x0 s0 L1 L4) as (s1 & -> & Ls). cbn [bind]. rewrite (@v_copy_ok F n) by auto. cbn [bind].
  destruct HA as (R1 & R2 & R3). destruct (R3 x0 t0 L1 L3) as (t' & -> & Ht' & HT). cbn [bind].
  destruct (@resid_axpyz F SF Hex c n M b Hm Hb x0 t' r0 L1 Ht' L2 HT) as (r' & -> & Hr' & HR). cbn [bind].
  rewrite (@v_nrm2_exact F SF Hex n) by auto. cbn [bind]. rewrite (@v_mul_ok F SF n) by auto. cbn [bind]. rewrite (@v_add_ok F SF n) by (auto; now rewrite zipw_length). cbn [bind].
  rewrite (@norm2_ext F SF n (fn r') (residual n M x0 b)) by auto.
  intros H. apply judge_ok in H. destruct v as [o [w|]|st' w]; auto; [tauto|]. destruct H as (-> & -> & _). split; auto. cbn [len4]. now rewrite !zipw_length.
Qed.
Theorem C117_jacobi_exact pre o h k : has_diag A n M -> pre_ok A n pre ->
  solve_h Jacobi true c A pre x b li lr = Ok (o, h) -> 1 <= k <= length h ->
  exists o', solve Jacobi (with_maxiter c (k - 1)) A pre x b li lr = Ok o' /\ o_code o' = MAXITER /\
    nth_error h (k - 1) = Some (k, fmul (norm2 n (residual n M (o_x o') b)) (fdiv f1 (norm2 n (fn b)))).
Proof.
  intros HD (f & Ef & Hf) H HK. rewrite (C117_printing_harmless Jacobi A pre x b li lr true (with_maxiter c (k - 1))). revert H. cbn [solve_h]. unfold jacobi_solve_h. cbn [s_lib with_maxiter]. rewrite Hl. unfold monolish_jacobi_h.
  pose proof HA as (R1 & R2 & R3). rewrite R1, R2, Nat.eqb_refl. cbn [require_ bind].
  rewrite (@v_nrm2_exact F SF Hex n) by auto. cbn [bind].
  assert (Hz : length (repeat f0 n) = n) by now rewrite repeat_length.
  destruct (HD _ Hz) as (d & -> & Hdl & Hdi). cbn [bind].
  rewrite (@v_recip_ok F SF n) by auto. cbn [bind]. rewrite Ef. cbn [bind s_maxiter with_maxiter].
  rewrite jac_loop_gen. replace c with (with_maxiter c (s_maxiter c)) at 1 by (destruct c; reflexivity). rewrite jac_loop_gen. intros H.
  destruct (nth_error h (k - 1)) as [l|] eqn:EL; [|apply nth_error_None in EL; lia].
  set (d' := map (fun v => fdiv f1 v) d) in *. assert (Ld : length d' = n) by (unfold d'; now rewrite map_length).
  destruct (@loop_line F SF _ c (jac_hstep c A f b d' (fdiv f1 (norm2 n (fn b)))) sx sr len4 (fun st v => v = fmul (norm2 n (residual n M (sx st) b)) (fdiv f1 (norm2 n (fn b)))))
    with (n := s_maxiter c) (iter := 0) (st := (x, repeat (@f0 F SF) n, repeat (@f0 F SF) n, repeat (@f0 F SF) n)) (m := s_maxiter c) (o := o) (h := h) (k := k - 1) (l := l)
    as (st' & (I1 & P1 & J1 & J2)); auto.
  - intros iter st v Hi Hs. exact (@jac_line_step f d' (fdiv f1 (norm2 n (fn b))) iter st v Hf Ld Hi Hs).
  - cbn. auto.
  - rewrite (J2 (k - 1)). destruct st' as [[[x1 r1] t1] s1]. destruct I1 as (I1 & I2 & _). unfold fin. cbn [sr sx] in *. unfold get_residual. rewrite Hm, (@v_nrm2_exact F SF Hex n) by auto.
    cbn. eexists. split; [reflexivity|]. split; [reflexivity|]. cbn [o_x]. destruct l as [j w]. cbn [fst snd] in *. f_equal. f_equal; [lia|auto].
Qed.
Lemma sor_line_step lower d bn iter st v : (forall d t r, length d = n -> length t = n -> length r = n -> exists t', lower d t r = Ok t' /\ length t' = n) -> length d = n ->
  len4 st -> sor_hstep c A (fun r z => v_copy r z) lower b d bn iter st = Ok v ->
  match v with Halt _ _ None => True | Halt _ _ (Some w) => w = fmul (norm2 n (residual n M (sx st) b)) bn | Go st' w => w = fmul (norm2 n (residual n M (sx st) b)) bn /\ len4 st' end.
Proof.
  destruct st as [[[x0 r0] t0] s0]. intros Hlow Hd (L1 & L2 & L3 & L4). cbn [sor_hstep sx].
  rewrite (@v_copy_ok F n) by auto. cbn [bind].
  destruct HA as (R1 & R2 & R3). destruct (R3 x0 t0 L1 L3) as (t' & -> & Ht' & HT). cbn [bind].
  destruct (@resid_axpyz F SF Hex c n M b Hm Hb x0 t' r0 L1 Ht' L2 HT) as (r' & -> & Hr' & HR). cbn [bind].
  rewrite (@v_nrm2_exact F SF Hex n) by auto. cbn [bind]. destruct (Hlow d t' r' Hd Ht' Hr') as (t2 & -> & Lt2). cbn [bind].
  rewrite (@v_axpy_ok F SF n) by auto. cbn [bind].
  rewrite (@norm2_ext F SF n (fn r') (residual n M x0 b)) by auto.
  intros H. apply judge_ok in H. destruct v as [o [w|]|st' w]; auto; [tauto|]. destruct H as (-> & -> & _). split; auto. cbn [len4]. now rewrite !zipw_length.
Qed.
Theorem C117_sor_exact lower o h k : has_diag A n M ->
  (forall d t r, length d = n -> length t = n -> length r = n -> exists t', lower d t r = Ok t' /\ length t' = n) ->
  solve_h (SOR lower) true c A pc_none x b li lr = Ok (o, h) -> 1 <= k <= length h ->
  exists o', solve (SOR lower) (with_maxiter c (k - 1)) A pc_none x b li lr = Ok o' /\ o_code o' = MAXITER /\
    nth_error h (k - 1) = Some (k, fmul (norm2 n (residual n M (o_x o') b)) (fdiv f1 (norm2 n (fn b)))).
Proof.
  intros HD Hlow H HK. rewrite (C117_printing_harmless (SOR lower) A pc_none x b li lr true (with_maxiter c (k - 1))). revert H. cbn [solve_h]. unfold sor_solve_h. cbn [s_lib with_maxiter]. rewrite Hl. unfold monolish_sor_h.
  pose proof HA as (R1 & R2 & R3). rewrite R1, R2, Nat.eqb_refl. cbn [require_ bind].
  assert (Hz : length (repeat f0 n) = n) by now rewrite repeat_length.
  destruct (HD _ Hz) as (d & -> & Hdl & Hdi). cbn [bind s_omega with_maxiter].
  rewrite (@v_recip_ok F SF n) by (unfold v_scal; rewrite ?map_length; auto). cbn [bind].
  rewrite (@v_nrm2_exact F SF Hex n) by auto. unfold pc_none. cbn [bind s_maxiter with_maxiter].
  rewrite sor_loop_gen. replace c with (with_maxiter c (s_maxiter c)) at 1 by (destruct c; reflexivity). rewrite sor_loop_gen. intros H.
  destruct (nth_error h (k - 1)) as [l|] eqn:EL; [|apply nth_error_None in EL; lia].
  set (d' := map (fun v => fdiv f1 v) _) in *. assert (Ld : length d' = n) by (unfold d', v_scal; now rewrite !map_length).
  destruct (@loop_line F SF _ c (sor_hstep c A (fun r z => v_copy r z) lower b d' (fdiv f1 (norm2 n (fn b)))) sx sr len4 (fun st v => v = fmul (norm2 n (residual n M (sx st) b)) (fdiv f1 (norm2 n (fn b)))))
    with (n := s_maxiter c) (iter := 0) (st := (x, repeat (@f0 F SF) n, repeat (@f0 F SF) n, repeat (@f0 F SF) n)) (m := s_maxiter c) (o := o) (h := h) (k := k - 1) (l := l)
    as (st' & (I1 & P1 & J1 & J2)); auto.
  - intros iter st v Hi Hs. exact (@sor_line_step lower d' (fdiv f1 (norm2 n (fn b))) iter st v Hlow Ld Hi Hs).
  - cbn. auto.
  - rewrite (J2 (k - 1)). destruct st' as [[[x1 r1] t1] s1]. destruct I1 as (I1 & I2 & _). unfold fin. cbn [sr sx] in *. unfold get_residual. rewrite Hm, (@v_nrm2_exact F SF Hex n) by auto.
    cbn. eexists. split; [reflexivity|]. split; [reflexivity|]. cbn [o_x]. destruct l as [j w]. cbn [fst snd] in *. f_equal. f_equal; [lia|auto].
Qed.
End Exact.

(** ** concrete runs in double precision *)
#[local] Existing Instance b64scalar.
Definition hcfg : cfg (F:=b64) := mkCfg 0 (fdiv (b64_of_Z 1) (b64_of_Z 1000)) 0 10 0 (b64_of_Z 1).
(** CG on [[4,1],[1,3]] x = (1,2): SUCCESS after two iterations with two lines; Jacobi: eight lines *)
Theorem C117_example : exists A o1 h1 o2 h2, dense_of_array 2 2 (map b64_of_Z [4;1;1;3]%Z) = Ok A /\
  solve_h CG true hcfg (dense_if A) pc_none (map b64_of_Z [0;0]%Z) (map b64_of_Z [1;2]%Z) 0 (b64_of_Z 0) = Ok (o1, h1) /\
  o_code o1 = SUCCESS /\ o_iter o1 = 2 /\ map fst h1 = [1; 2] /\
  solve_h Jacobi true hcfg (dense_if A) pc_none (map b64_of_Z [0;0]%Z) (map b64_of_Z [1;2]%Z) 0 (b64_of_Z 0) = Ok (o2, h2) /\
  o_code o2 = SUCCESS /\ map fst h2 = seq 1 (o_iter o2) /\ 2 < o_iter o2.
Proof.
  do 5 eexists. split; [vm_compute; reflexivity|]. split; [vm_compute; reflexivity|]. split; [vm_compute; reflexivity|]. split; [vm_compute; reflexivity|].
  split; [vm_compute; reflexivity|]. split; [vm_compute; reflexivity|]. split; [vm_compute; reflexivity|]. split; [vm_compute; reflexivity|].
  cbn [o_iter]. lia.
Qed.
(** Jacobi and SOR: the last line is not what get_final_residual reports *)
Theorem C117_stationary_last_refuted : exists A b x0 o1 h1 l1 o2 h2 l2,
  dense_of_array 2 2 (map b64_of_Z [1;3;3;1]%Z) = Ok A /\ b = map b64_of_Z [4;4]%Z /\ x0 = [b64_of_Z 1; b64_of_Z 2] /\
  solve_h Jacobi true tcfg (dense_if A) pc_none x0 b 0 (b64_of_Z 0) = Ok (o1, h1 ++ [l1]) /\ o_code o1 = SUCCESS /\ snd l1 <> o_resid o1 /\
  solve_h (SOR (sor_lower_dense A)) true tcfg (dense_if A) pc_none x0 b 0 (b64_of_Z 0) = Ok (o2, h2 ++ [l2]) /\ o_code o2 = SUCCESS /\ snd l2 <> o_resid o2.
Proof.
  do 3 eexists. do 2 eexists. eexists. do 3 eexists. split; [vm_compute; reflexivity|]. split; [reflexivity|]. split; [reflexivity|].
  split; [instantiate (2 := []); vm_compute; reflexivity|]. split; [reflexivity|]. split; [vm_compute; discriminate|].
  split; [instantiate (2 := []); vm_compute; reflexivity|]. split; [reflexivity|]. vm_compute; discriminate.
Qed.
(** BREAKDOWN: final_iter counts an iteration that printed no line (BiCGSTAB started in the solution) *)
Theorem C117_breakdown_example : exists A o, dense_of_array 1 1 [b64_of_Z 2] = Ok A /\
  solve_h BiCGSTAB true hcfg (dense_if A) pc_none [b64_of_Z 1] [b64_of_Z 2] 0 (b64_of_Z 0) = Ok (o, []) /\ o_code o = BREAKDOWN /\ o_iter o = 1.
Proof. do 2 eexists. split; [vm_compute; reflexivity|]. split; [vm_compute; reflexivity|]. split; reflexivity. Qed.

Print Assumptions C117_printing_harmless.
Print Assumptions C117_silent.
Print Assumptions C117_other_lib.
Print Assumptions C117_history.
Print Assumptions C117_begins.
Print Assumptions C117_krylov_lines.
Print Assumptions C117_krylov_last.
Print Assumptions C117_krylov_exact.
Print Assumptions C117_jacobi_exact.
Print Assumptions C117_sor_exact.
Print Assumptions C117_example.
Print Assumptions C117_stationary_last_refuted.
Print Assumptions C117_breakdown_example.
