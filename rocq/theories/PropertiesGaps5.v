(** * PropertiesGaps5: set_residual_method with anything but 0 (added because an edit of get_residual survived, seeded/LOG.jsonl).

    Any arithmetic: whatever the matrix, right-hand side, tolerance and limits, CG, BiCGSTAB and Jacobi throw; they never return. *)
From Coq Require Import ZArith.
From Verif Require Import Base Scalar Spec SumFacts DenseModel Observe SolverModel SolverSpec SolverProof SolverProof2.
Set Implicit Arguments.

Section Method.
Context {F : Type} {SF : Scalar F}.
Local Open Scope F_scope.
(** a square matrix of size n: the product with a vector of length n works *)
Definition square (A : matif (F:=F)) (n : nat) : Prop :=
  mi_row A = n /\ mi_col A = n /\
  (forall x y, length x = n -> length y = n -> exists y', mi_vec A x y = Ok y' /\ length y' = n) /\
  (forall d, length d = n -> exists d', mi_diag A d = Ok d' /\ length d' = n).
Variables (c : cfg (F:=F)) (A : matif (F:=F)) (n : nat).
Hypothesis HA : square A n.
Hypothesis Hm : s_method c <> 0%nat.

Lemma residual_throws r : get_residual c r = Throw.
Proof. unfold get_residual. destruct (s_method c); congruence. Qed.

Ltac len := repeat (rewrite zipw_length || rewrite map_length || rewrite repeat_length); auto.
Ltac go := first
  [ rewrite (@v_dot_ok F SF n) by len | rewrite (@v_axpy_ok F SF n) by len | rewrite (@v_xpay_ok F SF n) by len | rewrite (@v_axpyz_ok F SF n) by len
  | rewrite (@v_copy_ok F n) by len | rewrite (@v_sub_ok F SF n) by len | rewrite (@v_mul_ok F SF n) by len | rewrite (@v_add_ok F SF n) by len
  | rewrite (@v_nrm2_ok F SF n) by len | rewrite (@v_recip_ok F SF n) by len ]; cbn [bind].

Section Loops.
Variable (f : list F -> list F -> res (list F)).
Hypothesis Hf : forall r z, length r = n -> length z = n -> exists z', f r z = Ok z' /\ length z' = n.
Ltac ap g H x := match goal with |- context [g ?a x] =>
   let y := fresh "y" in let E := fresh "E" in let L := fresh "L" in destruct (H a x) as (y & E & L); [len|len|]; rewrite E; clear E; cbn [bind] end.
Ltac mvp x := match goal with |- context [mi_vec A ?a x] =>
   let y := fresh "y" in let E := fresh "E" in let L := fresh "L" in destruct (proj1 (proj2 (proj2 HA)) a x) as (y & E & L); [len|len|]; rewrite E; clear E; cbn [bind] end.

Lemma cg_throws k iter x r p q z : length x = n -> length r = n -> length p = n -> length q = n -> length z = n ->
  cg_loop c A f k iter x r p q z = Throw.
Proof.
  intros Lx Lr Lp Lq Lz. destruct k; cbn [cg_loop]; [now rewrite residual_throws|].
  mvp q. go. go. go. go. ap f Hf z. go. go. now rewrite residual_throws.
Qed.

Lemma bicg_throws r0 k iter st : length r0 = n -> length (b_x st) = n -> length (b_r st) = n -> length (b_p st) = n -> length (b_phat st) = n ->
  length (b_s st) = n -> length (b_shat st) = n -> length (b_v st) = n -> length (b_t st) = n ->
  bicg_loop c A f r0 k iter st = Throw.
Proof.
  intros L0 L1 L2 L3 L4 L5 L6 L7 L8. destruct k; cbn [bicg_loop]; [now rewrite residual_throws|].
  go. destruct (feqb _ 0); [now rewrite residual_throws|].
  match goal with |- bind ?X _ = _ => assert (P : exists p, X = Ok p /\ length p = n) end.
  { destruct iter; cbv zeta; [go; eauto|]. go. rewrite (@v_xpay_ok F SF n) by len. eexists. split; [reflexivity|]. len. }
  destruct P as (p & -> & Lp). cbn [bind]. ap f Hf (b_phat st). mvp (b_v st). go. rewrite (@v_axpyz_ok F SF n) by len. cbn [bind]. ap f Hf (b_shat st). mvp (b_t st). go. go.
  destruct (feqb _ 0); [now rewrite residual_throws|]. go. go. go. now rewrite residual_throws.
Qed.

Lemma jacobi_throws b d bn k : length b = n -> length d = n -> forall iter x r t s, length x = n -> length r = n -> length t = n -> length s = n ->
  jacobi_loop c A f b d bn k iter x r t s = Throw.
Proof.
  intros Lb Ld. induction k; intros iter x r t s Lx Lr Lt Ls; cbn [jacobi_loop]; [now rewrite residual_throws|].
  ap f Hf s. go. mvp t. go. go. go. go.
  destruct (_ && _); [now rewrite residual_throws|]. destruct (fnan _); [now rewrite residual_throws|].
  apply IHk; len.
Qed.
End Loops.

Theorem C34_residual_method pre x b li lr : s_lib c = 0%nat -> pre_ok A n pre -> length x = n -> length b = n ->
  cg_solve c A pre x b li lr = Throw /\ bicgstab_solve c A pre x b li lr = Throw /\ jacobi_solve c A pre x b li lr = Throw.
Proof.
  intros Hl (f & Ef & Hf) Lx Lb. destruct HA as (R & C & Hv & Hd).
  unfold cg_solve, bicgstab_solve, jacobi_solve, monolish_cg, monolish_bicgstab, monolish_jacobi. rewrite Hl, R, C, Nat.eqb_refl. cbn [require_ bind].
  rewrite Ef. cbn [bind].
  destruct (Hv x (repeat 0 n)) as (q & Eq & Lq); [auto|len|]. rewrite Eq. cbn [bind].
  split; [|split].
  - go. destruct (Hf (zipw fsub b q) (repeat 0 n)) as (z & Ez & Lz); [len|len|]. rewrite Ez. cbn [bind]. go. apply cg_throws; len.
  - go. go. apply bicg_throws; cbn [b_x b_r b_p b_phat b_s b_shat b_v b_t]; len.
  - go. destruct (Hd (repeat 0 n)) as (d & Ed & Ld); [len|]. rewrite Ed. cbn [bind]. go. apply jacobi_throws; len.
Qed.
End Method.
(** the hypotheses: a 2 x 2 Dense matrix *)
Theorem C34_residual_method_example : let A := dense_if (SF := Zscalar) (mkDense 2 2 [2;1;1;3]%Z 0 4 4 true) in
  square A 2 /\ pre_ok A 2 pc_none /\ cg_solve (SF := Zscalar) (mkCfg 0 0%Z 0 5 1 1%Z) A pc_none [0;0]%Z [1;2]%Z 0 0%Z = Throw.
Proof.
  cbv zeta. split; [|split].
  - split; [reflexivity|]. split; [reflexivity|]. split.
    + intros [|x1 [|x2 [|]]] [|y1 [|y2 [|]]] Hx Hy; try discriminate. eexists. split; [reflexivity|reflexivity].
    + intros [|y1 [|y2 [|]]] Hy; try discriminate. eexists. split; [reflexivity|reflexivity].
  - eexists. split; [reflexivity|]. intros r z Hr Hz. exists r. split; auto. now apply (@v_copy_ok Z 2).
  - vm_compute. reflexivity.
Qed.
