(** * SolverProof: CG and BiCGSTAB keep r = b - A x (proof support for C34). *)
From Coq Require Import Ring.
From Verif Require Import Base Scalar Spec SumFacts Loops CrsModel DenseModel SolverModel SolverSpec.
Set Implicit Arguments.

Section Ops.
Context {F : Type} {SF : Scalar F}.
Local Open Scope F_scope.

Lemma leneq_true (a b : list F) : length a = length b -> leneq a b = true.
Proof. intros H. unfold leneq. now apply Nat.eqb_eq. Qed.

Lemma zipw_length (g : F -> F -> F) a b : length (zipw g a b) = length a.
Proof. unfold zipw. now rewrite map_length, seq_length. Qed.
Lemma zipw_fn (g : F -> F -> F) a b i : i < length a -> fn (zipw g a b) i = g (fn a i) (fn b i).
Proof. intros H. unfold fn, zipw. now rewrite nth_map_seq. Qed.

Lemma v_sub_ok n (a b y : list F) : length a = n -> length b = n -> length y = n -> v_sub a b y = Ok (zipw fsub a b).
Proof. intros. unfold v_sub. rewrite !leneq_true by congruence. reflexivity. Qed.
Lemma v_add_ok n (a b y : list F) : length a = n -> length b = n -> length y = n -> v_add a b y = Ok (zipw fadd a b).
Proof. intros. unfold v_add. rewrite !leneq_true by congruence. reflexivity. Qed.
Lemma v_mul_ok n (a b y : list F) : length a = n -> length b = n -> length y = n -> v_mul a b y = Ok (zipw fmul a b).
Proof. intros. unfold v_mul. rewrite !leneq_true by congruence. reflexivity. Qed.
Lemma v_copy_ok n (a y : list F) : length a = n -> length y = n -> v_copy a y = Ok a.
Proof. intros. unfold v_copy. rewrite !leneq_true by congruence. reflexivity. Qed.
Lemma v_recip_ok n (a y : list F) : length a = n -> length y = n -> v_recip a y = Ok (map (fun v => 1 / v) a).
Proof. intros. unfold v_recip. rewrite !leneq_true by congruence. reflexivity. Qed.
Lemma v_axpy_ok n alpha (a y : list F) : length a = n -> length y = n ->
  v_axpy alpha a y = Ok (zipw (fun a b => b + alpha * a) a y).
Proof. intros. unfold v_axpy. rewrite !leneq_true by congruence. reflexivity. Qed.
Lemma v_xpay_ok n alpha (a y : list F) : length a = n -> length y = n ->
  v_xpay alpha a y = Ok (zipw (fun a b => a + alpha * b) a y).
Proof. intros. unfold v_xpay. rewrite !leneq_true by congruence. reflexivity. Qed.
Lemma v_axpyz_ok n alpha (a b y : list F) : length a = n -> length b = n -> length y = n ->
  v_axpyz alpha a b y = Ok (zipw (fun a b => alpha * a + b) a b).
Proof. intros. unfold v_axpyz. rewrite !leneq_true by congruence. reflexivity. Qed.
Lemma v_dot_ok n (a b : list F) : length a = n -> length b = n ->
  v_dot a b = Ok (fold_left (fun s i => s + fn a i * fn b i) (seq 0 n) 0).
Proof. intros H1 H2. unfold v_dot. rewrite !leneq_true by congruence. now rewrite H1. Qed.
Lemma v_nrm2_ok n (a : list F) : length a = n ->
  v_nrm2 a = Ok (fsqrt (fold_left (fun s i => s + fn a i * fn a i) (seq 0 n) 0)).
Proof. intros H1. unfold v_nrm2. rewrite (@v_dot_ok n) by auto. reflexivity. Qed.
End Ops.

(** ** exact arithmetic *)
Section Exact.
Context {F : Type} {SF : Scalar F}.
Local Open Scope F_scope.
Hypothesis Hex : exact SF.
Let Hrt : ring_theory f0 f1 fadd fmul fsub fopp (@eq F) := Hex.
Add Ring FringS : Hrt.

Lemma v_dot_exact n (a b : list F) : length a = n -> length b = n -> v_dot a b = Ok (dotp n (fn a) (fn b)).
Proof.
  intros. rewrite (@v_dot_ok F SF n) by auto. f_equal.
  rewrite (fold_seq_sum Hex (fun i => fn a i * fn b i)). unfold dotp. ring.
Qed.
Lemma v_nrm2_exact n (a : list F) : length a = n -> v_nrm2 a = Ok (norm2 n (fn a)).
Proof. intros. unfold v_nrm2. rewrite (@v_dot_exact n) by auto. reflexivity. Qed.

Lemma mv_axpy n (M : nat -> nat -> F) alpha x p y i :
  (forall j, (j < n)%nat -> y j = x j + alpha * p j) -> mv n M y i = mv n M x i + alpha * mv n M p i.
Proof.
  intros H. unfold mv. rewrite <- (sum_scal Hex), <- (sum_add Hex). apply sum_ext. intros j Hj. rewrite H by auto. ring.
Qed.

Lemma norm2_ext n u v : (forall i, (i < n)%nat -> u i = v i) -> norm2 n u = norm2 n v.
Proof. intros H. unfold norm2. f_equal. apply sum_ext. intros i Hi. now rewrite H. Qed.

Variables (c : cfg (F:=F)) (A : matif (F:=F)) (n : nat) (M : nat -> nat -> F) (b : list F).
Hypothesis HA : represents A n M.
Hypothesis Hm : s_method c = 0%nat.
Hypothesis Hb : length b = n.

(** r is the residual of x *)
Definition is_resid (x r : list F) : Prop :=
  length x = n /\ length r = n /\ forall i, (i < n)%nat -> fn r i = residual n M x b i.

Lemma get_residual_is x r : is_resid x r -> get_residual c r = Ok (norm2 n (residual n M x b)).
Proof.
  intros (Hx & Hr & HR). unfold get_residual. rewrite Hm, (@v_nrm2_exact n) by auto. f_equal. now apply norm2_ext.
Qed.

Lemma is_resid_axpy x r p q alpha :
  is_resid x r -> length p = n -> length q = n -> (forall i, (i < n)%nat -> fn q i = mv n M (fn p) i) ->
  is_resid (zipw (fun a b => b + alpha * a) p x) (zipw (fun a b => b + - alpha * a) q r).
Proof.
  intros (Hx & Hr & HR) Hp Hq HQ. split; [now rewrite zipw_length|]. split; [now rewrite zipw_length|].
  intros i Hi. rewrite zipw_fn by lia. rewrite HR by auto. unfold residual.
  rewrite (@mv_axpy n M alpha (fn x) (fn p) (fn (zipw (fun a b => b + alpha * a) p x))) by (intros j Hj; rewrite zipw_fn by lia; auto).
  rewrite HQ by auto. ring.
Qed.

Lemma is_resid_init x q : length x = n -> length q = n -> (forall i, (i < n)%nat -> fn q i = mv n M (fn x) i) ->
  is_resid x (zipw fsub b q).
Proof.
  intros Hx Hq HQ. split; auto. split; [now rewrite zipw_length|]. intros i Hi.
  rewrite zipw_fn by lia. rewrite HQ by auto. reflexivity.
Qed.

Variable pre : list F -> list F -> res (list F).
Hypothesis Hpre : forall r z, length r = n -> length z = n -> exists z', pre r z = Ok z' /\ length z' = n.

Definition good (o : outcome) : Prop :=
  length (o_x o) = n /\ o_resid o = norm2 n (residual n M (o_x o) b) /\ code_honest c o.

Lemma cg_loop_good k : forall iter x r p q z,
  (iter + k = s_maxiter c)%nat -> is_resid x r -> length p = n -> length q = n -> length z = n ->
  exists o, cg_loop c A pre k iter x r p q z = Ok o /\ good o /\ o_code o <> BREAKDOWN.
Proof.
  destruct HA as (HA1 & HA2 & HA3).
  induction k as [|k IH]; intros iter x r p q z Hk HR Hp Hq Hz; cbn [cg_loop].
  - rewrite (get_residual_is HR). cbn [bind]. eexists. split; [reflexivity|]. split; [|discriminate].
    split; cbn [o_x o_resid o_code o_iter]; [apply HR|]. split; auto. right. right. right. auto.
  - destruct (HA3 p q Hp Hq) as (q' & E & Hq' & HQ). rewrite E. cbn [bind]. clear E.
    pose proof HR as (Hx & Hr & _).
    rewrite !(@v_dot_exact n) by auto. cbn [bind].
    set (alpha := dotp n (fn z) (fn r) / dotp n (fn p) (fn q')).
    rewrite (@v_axpy_ok F SF n) by auto. cbn [bind]. rewrite (@v_axpy_ok F SF n) by auto. cbn [bind].
    pose proof (@is_resid_axpy _ _ _ _ alpha HR Hp Hq' HQ) as HR'.
    set (x' := zipw _ p x) in *. set (r' := zipw _ q' r) in *. clearbody x' r'.
    pose proof HR' as (Hx' & Hr' & _).
    destruct (Hpre _ _ Hr' Hz) as (z' & E & Hz'). rewrite E. cbn [bind]. clear E.
    rewrite (@v_dot_exact n) by auto. cbn [bind].
    rewrite (@v_xpay_ok F SF n) by auto. cbn [bind].
    rewrite (get_residual_is HR'). cbn [bind].
    destruct (fltb _ _ && _) eqn:E1; [|destruct (fnan _) eqn:E2].
    + eexists. split; [reflexivity|]. split; [|discriminate]. split; [exact Hx'|]. split; [reflexivity|].
      left. cbn [o_code o_resid o_iter]. apply andb_prop in E1. destruct E1 as [E1 E3]. apply Nat.leb_le in E3.
      repeat split; auto; lia.
    + eexists. split; [reflexivity|]. split; [|discriminate]. split; [exact Hx'|]. split; [reflexivity|].
      right. left. cbn [o_code o_resid o_iter]. repeat split; auto; lia.
    + apply IH; auto; [lia|]. now rewrite zipw_length.
Qed.

Lemma bicg_loop_good r0 k : forall iter st,
  (iter + k = s_maxiter c)%nat -> is_resid (b_x st) (b_r st) -> length r0 = n -> length (b_p st) = n ->
  length (b_phat st) = n -> length (b_s st) = n -> length (b_shat st) = n -> length (b_v st) = n -> length (b_t st) = n ->
  exists o, bicg_loop c A pre r0 k iter st = Ok o /\ good o.
Proof.
  destruct HA as (HA1 & HA2 & HA3).
  induction k as [|k IH]; intros iter [x r p phat s shat v t rho_old alpha_ omega_] Hk HR H0 Hp Hph Hs Hsh Hv Ht;
    cbn [bicg_loop b_x b_r b_p b_phat b_s b_shat b_v b_t b_rho_old b_alpha b_omega] in *.
  - rewrite (get_residual_is HR). cbn [bind]. eexists. split; [reflexivity|].
    split; cbn [o_x o_resid o_code o_iter]; [apply HR|]. split; auto. right. right. right. auto.
  - pose proof HR as (Hx & Hr & HRr).
    rewrite (@v_dot_exact n r r0) by auto. cbn [bind].
    set (rho := dotp n (fn r) (fn r0)).
    destruct (feqb rho 0).
    { rewrite (get_residual_is HR). cbn [bind]. eexists. split; [reflexivity|]. split; [exact Hx|]. split; [reflexivity|].
      right. right. left. cbn [o_code o_iter]. split; auto. lia. }
    match goal with |- context [bind ?m (fun p => bind (pre p phat) _)] =>
      assert (Ep : exists p', m = Ok p' /\ length p' = n) end.
    { destruct iter.
      - rewrite (@v_copy_ok F n) by auto. eauto.
      - cbv zeta. rewrite (@v_axpy_ok F SF n) by auto. cbn [bind].
        rewrite (@v_xpay_ok F SF n) by (auto; now rewrite zipw_length). eexists. split; [reflexivity|]. now rewrite zipw_length. }
    destruct Ep as (p' & -> & Hp'). cbn [bind].
    destruct (Hpre _ _ Hp' Hph) as (phat' & -> & Hph'). cbn [bind].
    destruct (HA3 phat' v Hph' Hv) as (v' & -> & Hv' & HV). cbn [bind].
    rewrite (@v_dot_exact n v' r0) by auto. cbn [bind].
    set (alpha := rho / _).
    rewrite (@v_axpyz_ok F SF n) by auto. cbn [bind].
    set (s' := zipw _ v' r).
    assert (Hs' : length s' = n) by (unfold s'; now rewrite zipw_length).
    assert (HS : is_resid (zipw (fun a b => b + alpha * a) phat' x) s').
    { destruct (@is_resid_axpy _ _ _ _ alpha HR Hph' Hv' HV) as (G1 & G2 & G3). split; auto. split; auto.
      intros i Hi. rewrite <- G3 by auto. unfold s'. rewrite !zipw_fn by lia. ring. }
    clearbody s'.
    destruct (Hpre _ _ Hs' Hsh) as (shat' & -> & Hsh'). cbn [bind].
    destruct (HA3 shat' t Hsh' Ht) as (t' & -> & Ht' & HT). cbn [bind].
    rewrite !(@v_dot_exact n t') by auto. cbn [bind].
    set (omega := _ / _).
    destruct (feqb omega 0).
    { rewrite (get_residual_is HR). cbn [bind]. eexists. split; [reflexivity|]. split; [exact Hx|]. split; [reflexivity|].
      right. right. left. cbn [o_code o_iter]. split; auto. lia. }
    rewrite (@v_axpy_ok F SF n) by auto. cbn [bind].
    rewrite (@v_axpy_ok F SF n) by (auto; now rewrite zipw_length). cbn [bind].
    rewrite (@v_axpyz_ok F SF n) by auto. cbn [bind].
    assert (HR' : is_resid (zipw (fun a b => b + omega * a) shat' (zipw (fun a b => b + alpha * a) phat' x))
                           (zipw (fun a b => - omega * a + b) t' s')).
    { destruct (@is_resid_axpy _ _ _ _ omega HS Hsh' Ht' HT) as (G1 & G2 & G3). split; auto. split; [now rewrite zipw_length|].
      intros i Hi. rewrite <- G3 by auto. rewrite !zipw_fn by lia. ring. }
    set (x' := zipw _ shat' _) in *. set (r' := zipw _ t' s') in *. clearbody x' r'.
    rewrite (get_residual_is HR'). cbn [bind].
    pose proof HR' as (Hx' & Hr' & _).
    destruct (fltb _ _ && _) eqn:E1; [|destruct (fnan _) eqn:E2].
    + eexists. split; [reflexivity|]. split; [exact Hx'|]. split; [reflexivity|].
      left. cbn [o_code o_resid o_iter]. apply andb_prop in E1. destruct E1 as [E1 E3]. apply Nat.leb_le in E3.
      repeat split; auto; lia.
    + eexists. split; [reflexivity|]. split; [exact Hx'|]. split; [reflexivity|].
      right. left. cbn [o_code o_resid o_iter]. repeat split; auto; lia.
    + apply IH; cbn [b_x b_r b_p b_phat b_s b_shat b_v b_t]; auto. lia.
Qed.
End Exact.

Section Solve.
Context {F : Type} {SF : Scalar F}.
Variables (c : cfg (F:=F)) (A : matif (F:=F)) (n : nat) (M : nat -> nat -> F) (pre : precond (F:=F)) (x b : list F) (li : nat) (lr : F).
Hypothesis (Hex : exact SF) (HA : represents A n M) (Hm : s_method c = 0) (Hl : s_lib c = 0)
  (Hpre : pre_ok A n pre) (Hx : length x = n) (Hb : length b = n).

Lemma cg_solve_good : exists o, cg_solve c A pre x b li lr = Ok o /\ good c n M b o /\ o_code o <> BREAKDOWN.
Proof.
  unfold cg_solve. rewrite Hl. unfold monolish_cg. pose proof HA as (R1 & R2 & R3). rewrite R1, R2, Nat.eqb_refl.
  cbn [require_ bind]. destruct Hpre as (f & -> & Hf). cbn [bind].
  assert (Hz : length (repeat f0 n) = n) by now rewrite repeat_length.
  destruct (R3 x (repeat f0 n) Hx Hz) as (q & -> & Hq & HQ). cbn [bind].
  rewrite (@v_sub_ok F SF n) by auto. cbn [bind].
  assert (HR : is_resid n M b x (zipw fsub b q)) by (eapply is_resid_init; eauto). set (r := zipw _ b q) in *. clearbody r.
  destruct (Hf r (repeat f0 n)) as (z & -> & Hzz); [apply HR|auto|]. cbn [bind].
  rewrite (@v_copy_ok F n) by auto. cbn [bind].
  eapply cg_loop_good; eauto. 
Qed.

Lemma bicgstab_solve_good : exists o, bicgstab_solve c A pre x b li lr = Ok o /\ good c n M b o.
Proof.
  unfold bicgstab_solve. rewrite Hl. unfold monolish_bicgstab. pose proof HA as (R1 & R2 & R3). rewrite R1, R2, Nat.eqb_refl.
  cbn [require_ bind]. destruct Hpre as (f & -> & Hf). cbn [bind].
  assert (Hz : length (repeat f0 n) = n) by now rewrite repeat_length.
  destruct (R3 x (repeat f0 n) Hx Hz) as (q & -> & Hq & HQ). cbn [bind].
  rewrite (@v_sub_ok F SF n) by auto. cbn [bind].
  assert (HR : is_resid n M b x (zipw fsub b q)) by (eapply is_resid_init; eauto). set (r := zipw _ b q) in *. clearbody r.
  rewrite (@v_copy_ok F n) by (auto; apply HR). cbn [bind].
  eapply bicg_loop_good; eauto; apply HR.
Qed.
End Solve.
