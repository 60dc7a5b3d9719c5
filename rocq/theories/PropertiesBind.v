(** * PropertiesBind: C119, solvers and the preconditioner objects they are bound to. *)
From Coq Require Import QArith Qcanon.
From Verif Require Import Base Scalar DenseModel CrsModel Observe SolverModel BindModel BindSpec BindProof.
Set Implicit Arguments.
Local Open Scope nat_scope.

Section Bind.
Context {F : Type} {SF : Scalar F}.

(** Whatever happened before - other solves by this or other solvers through the same preconditioner object, with other
    matrices of other sizes, direct calls, copies, changed or destroyed matrices - a solver bound for creating and applying
    to one living object computes what it computes with that preconditioner made for the present contents of the present
    matrix and the present parameters. *)
Theorem C119_fresh (w : world (F:=F)) i o p q m a x b :
  getobj w i = Some o -> bound_to w o p q -> getmat w m = Some a -> diag_total a ->
  says w (Solve i m x b) = reply_of (solve (ob_kind o) (ob_cfg o) a (fresh (ob_kind q) (s_omega (ob_cfg q)) a) x b (ob_iter o) (ob_resid o)) (@Solved F).
Proof.
  intros Ho (B1 & B2 & B3 & B4) Ha Hd. rewrite (says_solve w i m x b Ho Ha). f_equal. apply solve_pre_eq.
  unfold bound_pre. rewrite B1, B2. cbn [create_bound apply_bound]. now apply create_apply.
Qed.
(** so two histories that end with the same solver parameters, the same class and parameters of the preconditioner and
    the same matrix end in the same reply *)
Theorem C119_history h1 h2 (w1 w2 : world (F:=F)) rs1 rs2 i1 i2 o1 o2 p1 p2 q1 q2 m1 m2 a x b :
  exec h1 start = Some (w1, rs1) -> exec h2 start = Some (w2, rs2) ->
  getobj w1 i1 = Some o1 -> getobj w2 i2 = Some o2 -> bound_to w1 o1 p1 q1 -> bound_to w2 o2 p2 q2 ->
  ob_kind o1 = ob_kind o2 -> ob_cfg o1 = ob_cfg o2 -> s_lib (ob_cfg o1) = 0 -> ob_kind o1 <> KNone -> ob_kind q1 = ob_kind q2 -> s_omega (ob_cfg q1) = s_omega (ob_cfg q2) ->
  getmat w1 m1 = Some a -> getmat w2 m2 = Some a -> diag_total a ->
  says w1 (Solve i1 m1 x b) = says w2 (Solve i2 m2 x b).
Proof.
  intros _ _ O1 O2 B1 B2 E1 E2 El En E3 E4 A1 A2 Hd. rewrite (@C119_fresh w1 i1 o1 p1 q1 m1 a x b O1 B1 A1 Hd), (@C119_fresh w2 i2 o2 p2 q2 m2 a x b O2 B2 A2 Hd), E3, E4. f_equal.
  rewrite <- E1, <- E2. destruct (ob_kind o1); cbn [solve]; [now destruct En|..]; unfold jacobi_solve, sor_solve, cg_solve, bicgstab_solve; rewrite El; reflexivity.
Qed.
(** solvers that were never bound run without preconditioner *)
Theorem C119_default (w : world (F:=F)) i o m a x b : getobj w i = Some o -> ob_cre o = None -> ob_app o = None -> getmat w m = Some a ->
  says w (Solve i m x b) = reply_of (solve (ob_kind o) (ob_cfg o) a pc_none x b (ob_iter o) (ob_resid o)) (@Solved F).
Proof. intros Ho H1 H2 Ha. rewrite (says_solve w i m x b Ho Ha). f_equal. apply solve_pre_eq. unfold bound_pre. rewrite H1, H2. reflexivity. Qed.
(** the hypothesis on diag holds for every CRS and every Dense object *)
Theorem C119_formats : (forall A : crs F, diag_total (crs_mat A)) /\ (forall A : dense F, diag_total (dense_mat A)).
Proof. split; [apply crs_diag_total|apply dense_diag_total]. Qed.

(** a solver for which only set_create_precond was called silently runs without preconditioner *)
Theorem C119_create_only (w w' : world (F:=F)) i o p m a x b : getobj w i = Some o -> ob_cre o = Some p -> ob_app o = None -> getmat w m = Some a ->
  create w p m = Ok w' ->
  says w (Solve i m x b) = reply_of (solve (ob_kind o) (ob_cfg o) a pc_none x b (ob_iter o) (ob_resid o)) (@Solved F).
Proof.
  intros Ho H1 H2 Ha Hc. rewrite (says_solve w i m x b Ho Ha). f_equal. apply solve_pre_eq. unfold bound_pre. rewrite H1, H2. cbn [create_bound]. rewrite Hc. reflexivity.
Qed.

(** binding both functions is all it takes, in either order: from then on the solver uses p (which may be the solver itself) *)
Theorem C119_bind (w : world (F:=F)) i o p q m a x b e : getobj w i = Some o -> getobj w p = Some q -> bindable (ob_kind q) = true -> getmat w m = Some a -> diag_total a ->
  e = [BindCreate i p; BindApply i p] \/ e = [BindApply i p; BindCreate i p] ->
  exists w' rs, exec e w = Some (w', rs) /\
    says w' (Solve i m x b) = reply_of (solve (ob_kind o) (ob_cfg o) a (fresh (ob_kind q) (s_omega (ob_cfg q)) a) x b (ob_iter o) (ob_resid o)) (@Solved F).
Proof.
  intros Hi Hp Hb Hm Hd E.
  assert (X : exists w' rs o' q', exec e w = Some (w', rs) /\ getobj w' i = Some o' /\ getobj w' p = Some q' /\ getmat w' m = Some a /\ ob_cre o' = Some p /\ ob_app o' = Some p /\
    ob_kind o' = ob_kind o /\ ob_cfg o' = ob_cfg o /\ ob_iter o' = ob_iter o /\ ob_resid o' = ob_resid o /\ ob_kind q' = ob_kind q /\ ob_cfg q' = ob_cfg q).
  { assert (P : forall k : kind, k = ob_kind q -> bindable k = true) by (intros k ->; exact Hb).
    destruct E as [-> | ->]; cbn [exec step]; rewrite Hi, Hp, Hb; rewrite !getobj_set by congruence; rewrite Nat.eqb_refl;
      (destruct (Nat.eqb_spec i p) as [e|e];
       [ subst p; assert (o = q) by congruence; subst q; cbn [ob_kind]; rewrite Hb
       | rewrite Hp, Hb ]);
      do 4 eexists; (split; [reflexivity|]);
      rewrite !getobj_set by (try rewrite getobj_set, Nat.eqb_refl by congruence; congruence); rewrite Nat.eqb_refl;
      (split; [reflexivity|]); try (destruct (Nat.eqb_spec i p); [contradiction|]); try (split; [exact Hp|]); try (split; [reflexivity|]);
      (split; [exact Hm|]); repeat split; reflexivity. }
  destruct X as (w' & rs & o' & q' & X1 & X2 & X3 & X4 & X5 & X6 & X7 & X8 & X9 & X10 & X11 & X12). exists w', rs. split; [exact X1|].
  rewrite <- X7, <- X8, <- X9, <- X10, <- X11, <- X12. apply (@C119_fresh w' i o' p q' m a x b X2); auto. unfold bound_to. rewrite X11. auto.
Qed.
(** and binding one of them binds only that one *)
Theorem C119_bind_create_only (w : world (F:=F)) i o p q m a x b : getobj w i = Some o -> getobj w p = Some q -> bindable (ob_kind q) = true -> getmat w m = Some a -> ob_app o = None ->
  exists w', step (BindCreate i p) w = Some (w', Done) /\ forall w2, create w' p m = Ok w2 ->
    says w' (Solve i m x b) = reply_of (solve (ob_kind o) (ob_cfg o) a pc_none x b (ob_iter o) (ob_resid o)) (@Solved F).
Proof.
  intros Hi Hp Hb Hm Ha. cbn [step]. rewrite Hi, Hp, Hb. eexists. split; [reflexivity|]. intros w2 C.
  match type of C with create (setobj w i (Some ?O)) _ _ = _ => pose proof (@C119_create_only (setobj w i (Some O)) w2 i O p m a x b) as Q end.
  apply Q; auto. rewrite getobj_set, Nat.eqb_refl by congruence. reflexivity.
Qed.

(** a created preconditioner stays what it was while nothing touches it (other objects and matrices may come and go):
    applying it gives the preconditioner of the matrix it was created for *)
Lemma created (w0 w1 w2 : world (F:=F)) p q m a h rs : getobj w0 p = Some q -> bindable (ob_kind q) = true -> getmat w0 m = Some a -> diag_total a ->
  step (Create p m) w0 = Some (w1, Done) -> quiet p m h w1 -> exec h w1 = Some (w2, rs) ->
  fresh (ob_kind q) (s_omega (ob_cfg q)) a (mt_if a) = Ok (apply w2 p).
Proof.
  intros Hp Hb Hm Hd S Q E. cbn [step] in S. destruct (create w0 p m) as [w1'| | | |] eqn:C; cbn [finish] in S; try discriminate. injection S as <-.
  rewrite <- (@create_apply F SF w0 p q m a Hp Hb Hm Hd), C. cbn [bind]. f_equal.
  assert (X : exists q', getobj w1' p = Some q' /\ ob_kind q' = ob_kind q /\ getmat w1' m = Some a /\ (ob_kind q = KSor -> ob_A q' = Some m)).
  { assert (Hnn : getobj w0 p <> None) by congruence. unfold create in C. rewrite Hp, Hm in C. destruct (ob_kind q) eqn:Ek; try discriminate.
    - injection C as <-. exists q. repeat split; auto. discriminate.
    - destruct (_ =? _); cbn [require_ bind] in C; [|discriminate]. destruct (mi_diag _ _); cbn [bind] in C; try discriminate. destruct (v_recip _ _); cbn [bind] in C; try discriminate.
      injection C as <-. eexists. rewrite getobj_set, Nat.eqb_refl by exact Hnn. split; [reflexivity|]. repeat split; auto. discriminate.
    - destruct (_ =? _); cbn [require_ bind] in C; [|discriminate]. destruct (mi_diag _ _); cbn [bind] in C; try discriminate. destruct (v_recip _ _); cbn [bind] in C; try discriminate.
      injection C as <-. eexists. rewrite getobj_set, Nat.eqb_refl by exact Hnn. split; [reflexivity|]. repeat split; auto. }
  destruct X as (q' & X1 & X2 & X3 & X4).
  assert (H1 : holds w1' p m (ob_kind q') (ob_M q') (ob_A q') a) by (split; [exists q'; auto|exact X3]).
  destruct (@exec_holds F SF p m _ _ _ a h w1' w2 rs H1 Q E) as [(q2 & Y1 & Y2 & Y3 & Y4) Y5]. unfold apply. rewrite X1, Y1, Y2, Y3, Y4, X2.
  destruct (ob_kind q) eqn:Ek; try reflexivity. rewrite (X4 eq_refl), X3, Y5. reflexivity.
Qed.
Theorem C119_create_then_apply (w0 w1 w2 : world (F:=F)) p q m a h rs r z : getobj w0 p = Some q -> bindable (ob_kind q) = true -> getmat w0 m = Some a -> diag_total a ->
  step (Create p m) w0 = Some (w1, Done) -> quiet p m h w1 -> exec h w1 = Some (w2, rs) ->
  says w2 (Apply p r z) = reply_of (f <- fresh (ob_kind q) (s_omega (ob_cfg q)) a (mt_if a) ;; f r z) (@Applied F).
Proof.
  intros Hp Hb Hm Hd S Q E. rewrite (@created w0 w1 w2 p q _ _ h rs Hp Hb Hm Hd S Q E). unfold says. cbn [step bind]. destruct (apply w2 p r z); reflexivity.
Qed.
(** a solver for which only set_apply_precond was called uses the matrix the object was last created for, not its own *)
Theorem C119_apply_only (w0 w1 w2 : world (F:=F)) p q m' a' h rs i o m a x b : getobj w0 p = Some q -> bindable (ob_kind q) = true -> getmat w0 m' = Some a' -> diag_total a' ->
  step (Create p m') w0 = Some (w1, Done) -> quiet p m' h w1 -> exec h w1 = Some (w2, rs) ->
  getobj w2 i = Some o -> ob_cre o = None -> ob_app o = Some p -> getmat w2 m = Some a ->
  says w2 (Solve i m x b) = reply_of (solve (ob_kind o) (ob_cfg o) a (fun _ => fresh (ob_kind q) (s_omega (ob_cfg q)) a' (mt_if a')) x b (ob_iter o) (ob_resid o)) (@Solved F).
Proof.
  intros Hp Hb Hm Hd S Q E Ho H1 H2 Ha. rewrite (says_solve w2 i m x b Ho Ha). f_equal. apply solve_pre_eq.
  rewrite (@created w0 w1 w2 p q _ _ h rs Hp Hb Hm Hd S Q E). unfold bound_pre. rewrite H1, H2. reflexivity.
Qed.

(** the preconditioner object must outlive the solver: after its end every solve that gets as far as creating is undefined *)
Theorem C119_outlive (w : world (F:=F)) i o p m a x b : getobj w i = Some o -> ob_cre o = Some p -> getobj w p = None -> getmat w m = Some a ->
  reaches (ob_kind o) (ob_cfg o) a = true -> solve (ob_kind o) (ob_cfg o) a (bound_pre w o m) x b (ob_iter o) (ob_resid o) = UB.
Proof.
  intros Ho H1 Hp Ha Hr. pose proof (@solve_reached F SF (ob_kind o) (ob_cfg o) a (bound_pre w o m) x b (ob_iter o) (ob_resid o) Hr) as R.
  unfold bound_pre in R at 1. rewrite H1 in R. cbn [create_bound] in R. unfold create in R at 1. rewrite Hp in R. cbn [bind] in R. exact R.
Qed.
(** [reaches] says exactly whether a solve calls create_precond: what that call does matters iff it is reached *)
Theorem C119_reaches k c (a : mat (F:=F)) x b li lr :
  (reaches k c a = true <-> solve k c a (fun _ => Throw) x b li lr <> solve k c a (fun _ => Abort) x b li lr) /\
  (reaches k c a = false <-> forall pre pre', solve k c a pre x b li lr = solve k c a pre' x b li lr).
Proof.
  destruct (reaches k c a) eqn:E.
  - pose proof (@solve_reached F SF k c a (fun _ => Throw) x b li lr E) as R1. pose proof (@solve_reached F SF k c a (fun _ => Abort) x b li lr E) as R2. cbn in R1, R2.
    split; split; try discriminate; auto.
    + intros _. rewrite R1, R2. discriminate.
    + intros H. rewrite (H (fun _ => Throw) (fun _ => Abort)), R2 in R1. discriminate.
  - split; split; try discriminate; auto.
    + intros H. destruct H. now apply solve_unreached.
    + intros _ pre pre'. now apply solve_unreached.
Qed.
End Bind.
Print Assumptions C119_fresh.
Print Assumptions C119_history.
Print Assumptions C119_default.
Print Assumptions C119_formats.
Print Assumptions C119_create_only.
Print Assumptions C119_create_then_apply.
Print Assumptions C119_apply_only.
Print Assumptions C119_outlive.
Print Assumptions C119_bind.
Print Assumptions C119_bind_create_only.
Print Assumptions C119_reaches.

(** ** concrete histories over the rationals *)
#[local] Hint Extern 0 (Scalar Qc) => exact Qcscalar : typeclass_instances.
#[local] Hint Extern 0 Schedule => exact (fun n => [seq 0 n]) : typeclass_instances.
Definition q (z : Z) : Qc := Q2Qc (z # 1).
Definition qc (n : nat) (w : Z) : cfg (F:=Qc) := mkCfg 0 (Q2Qc (1 # 1000000)) 0 n 0 (q w).
Definition dn (n : nat) (l : list Z) : mat (F:=Qc) :=
  match dense_of_array n n (map q l) with Ok A => dense_mat A | _ => dense_mat (mkDense 0 0 [] 0 0 0 false) end.
Definition A2 := dn 2 [4;1;1;3]%Z.
Definition B2 := dn 2 [2;0;0;5]%Z.
Definition A1 := dn 1 [7]%Z.
(** CRS matrices for SOR, whose Dense kernel reads out of bounds (C36) *)
Definition cr (l : list Z) : mat (F:=Qc) :=
  match crs_of_arrays 2 2 4 [0;2;4] [0;1;0;1] (map q l) with Ok A => crs_mat A | _ => dn 0 [] end.
Definition A2s := cr [4;1;1;3]%Z.
Definition C2 := cr [8;2;2;6]%Z.
Definition x2 := [q 2; q 1]. Definition b2 := [q 1; q 2].
Definition view (r : reply (F:=Qc)) : list Q := match r with Solved o => map this (o_x o) | Applied z => map this z | _ => [] end.
(** one Jacobi object (0) shared by a CG solver (1) and a BiCGSTAB solver (2), used in turn with matrices of sizes 2, 1, 2; the
    first matrix is destroyed and the third changed in between.  The last solve is that of a new program that does nothing else. *)
(** the world a history ends in *)
Definition world_of (h : list (op (F:=Qc))) (w : world (F:=Qc)) : world (F:=Qc) := match exec h w with Some (w', _) => w' | None => w end.
Definition runs (h : list (op (F:=Qc))) (w : world (F:=Qc)) : bool := match exec h w with Some _ => true | None => false end.
Lemma runs_exec h w : runs h w = true -> exists rs, exec h w = Some (world_of h w, rs).
Proof. unfold runs, world_of. destruct (exec h w) as [[w' rs]|]; [eauto|discriminate]. Qed.
Definition shared : list (op (F:=Qc)) :=
  [NewMat A2; NewMat A1; NewMat A2; New KJacobi (qc 9 1); New KCg (qc 9 1); New KBicg (qc 1 1);
   BindCreate 1 0; BindApply 1 0; BindCreate 2 0; BindApply 2 0;
   Solve 2 0 x2 b2; Solve 1 1 [q 3] [q 4]; DelMat 0; SetMat 2 B2].
Definition alone : list (op (F:=Qc)) := [NewMat B2; New KCg (qc 9 1); New KJacobi (qc 9 1); BindCreate 0 1; BindApply 0 1].
Lemma omap_inv {A B} (f : A -> B) x y : option_map f x = Some y -> exists a, x = Some a /\ f a = y.
Proof. destruct x as [a|]; cbn; [intros [= <-]; eauto|discriminate]. Qed.
Theorem C119_example : exists w1 rs1 w2 rs2, exec shared start = Some (w1, rs1) /\ exec alone start = Some (w2, rs2) /\
  (exists o q1, getobj w1 1 = Some o /\ bound_to w1 o 0 q1 /\ map this (ob_M q1) = [(1 # 7)%Q]) /\ getmat w1 2 = Some B2 /\ diag_total B2 /\
  option_map view (says w1 (Solve 1 2 x2 b2)) = Some [(1 # 2)%Q; (2 # 5)%Q] /\
  option_map view (says w2 (Solve 0 0 x2 b2)) = Some [(1 # 2)%Q; (2 # 5)%Q].
Proof.
  destruct (@runs_exec shared start) as [rs1 E1]; [vm_compute; reflexivity|]. destruct (@runs_exec alone start) as [rs2 E2]; [vm_compute; reflexivity|].
  exists (world_of shared start), rs1, (world_of alone start), rs2. split; [exact E1|]. split; [exact E2|]. split; [|split; [|split; [|split]]].
  - assert (X : option_map (fun o => (ob_cre o, ob_app o)) (getobj (world_of shared start) 1) = Some (Some 0, Some 0)) by (vm_compute; reflexivity).
    assert (Y : option_map (fun o => (ob_kind o, map this (ob_M o))) (getobj (world_of shared start) 0) = Some (KJacobi, [(1 # 7)%Q])) by (vm_compute; reflexivity).
    apply omap_inv in X as (o & Eo & X). apply omap_inv in Y as (q0 & Eq & Y). injection X as X1 X2. injection Y as Y1 Y2.
    exists o, q0. split; [exact Eo|]. split; [split; [exact X1|]; split; [exact X2|]; split; [exact Eq|now rewrite Y1]|exact Y2].
  - unfold getmat. rewrite (exec_mats _ _ E1). reflexivity.
  - unfold B2, dn. destruct (dense_of_array _ _ _); apply dense_diag_total.
  - vm_compute. reflexivity.
  - vm_compute. reflexivity.
Qed.
Print Assumptions C119_example.
(** binding only the apply function: never created, the call ends in a failed assert (Jacobi) or undefined behaviour (SOR);
    created for another matrix, the solve is silently another one *)
Theorem C119_apply_only_refuted :
  (exists w rs, exec [NewMat A2; New KJacobi (qc 9 1); New KCg (qc 1 1); BindApply 1 0] start = Some (w, rs) /\ says w (Solve 1 0 x2 b2) = None) /\
  (exists w rs, exec [NewMat A2; New KSor (qc 9 1); New KCg (qc 1 1); BindApply 1 0] start = Some (w, rs) /\ says w (Solve 1 0 x2 b2) = None) /\
  (exists w rs v v', exec [NewMat A2; NewMat B2; New KJacobi (qc 9 1); New KCg (qc 1 1); BindApply 1 0; Create 0 1] start = Some (w, rs) /\
     option_map view (says w (Solve 1 0 x2 b2)) = Some v /\
     option_map view (reply_of (solve KCg (qc 1 1) A2 pc_jacobi x2 b2 0 (q 0)) (@Solved Qc)) = Some v' /\ v <> v').
Proof.
  split; [|split].
  - eexists. destruct (@runs_exec [NewMat A2; New KJacobi (qc 9 1); New KCg (qc 1 1); BindApply 1 0] start) as [rs E]; [vm_compute; reflexivity|]. exists rs. split; [exact E|vm_compute; reflexivity].
  - eexists. destruct (@runs_exec [NewMat A2; New KSor (qc 9 1); New KCg (qc 1 1); BindApply 1 0] start) as [rs E]; [vm_compute; reflexivity|]. exists rs. split; [exact E|vm_compute; reflexivity].
  - destruct (@runs_exec [NewMat A2; NewMat B2; New KJacobi (qc 9 1); New KCg (qc 1 1); BindApply 1 0; Create 0 1] start) as [rs E]; [vm_compute; reflexivity|].
    eexists. exists rs. do 2 eexists. split; [exact E|]. split; [vm_compute; reflexivity|]. split; [vm_compute; reflexivity|]. discriminate.
Qed.
(** binding create and apply to two different objects: the one that is applied is never created *)
Theorem C119_two_objects_refuted : exists w rs,
  exec [NewMat A2; New KJacobi (qc 9 1); New KJacobi (qc 9 1); New KCg (qc 1 1); BindCreate 2 0; BindApply 2 1] start = Some (w, rs) /\ says w (Solve 2 0 x2 b2) = None.
Proof.
  destruct (@runs_exec [NewMat A2; New KJacobi (qc 9 1); New KJacobi (qc 9 1); New KCg (qc 1 1); BindCreate 2 0; BindApply 2 1] start) as [rs E]; [vm_compute; reflexivity|].
  eexists. exists rs. split; [exact E|vm_compute; reflexivity].
Qed.
(** a copy of a solver that preconditions itself is bound to the original: when the original is gone, the copy cannot solve *)
Theorem C119_copy_refuted : exists w rs w' rs' v,
  exec [NewMat A2; New KJacobi (qc 1 1); BindCreate 0 0; BindApply 0 0; Copy 0] start = Some (w, rs) /\ option_map view (says w (Solve 1 0 x2 b2)) = Some v /\
  exec [Destroy 0] w = Some (w', rs') /\ says w' (Solve 1 0 x2 b2) = None.
Proof.
  destruct (@runs_exec [NewMat A2; New KJacobi (qc 1 1); BindCreate 0 0; BindApply 0 0; Copy 0] start) as [rs E]; [vm_compute; reflexivity|].
  eexists. exists rs. edestruct (@runs_exec [Destroy 0]) as [rs' E']; [|do 3 eexists; split; [exact E|]; split; [|split; [exact E'|]]]; vm_compute; reflexivity.
Qed.
(** SOR keeps the diagonal but points to the matrix: after a change of the matrix, apply_precond is the preconditioner of neither *)
Theorem C119_sor_mixture_refuted : exists w rs z z1 z2,
  exec [NewMat A2s; New KSor (qc 9 1); Create 0 0; SetMat 0 C2] start = Some (w, rs) /\
  option_map view (says w (Apply 0 b2 x2)) = Some z /\
  option_map view (reply_of (f <- fresh KSor (q 1) A2s (mt_if A2s) ;; f b2 x2) (@Applied Qc)) = Some z1 /\
  option_map view (reply_of (f <- fresh KSor (q 1) C2 (mt_if C2) ;; f b2 x2) (@Applied Qc)) = Some z2 /\ z <> z1 /\ z <> z2.
Proof.
  destruct (@runs_exec [NewMat A2s; New KSor (qc 9 1); Create 0 0; SetMat 0 C2] start) as [rs E]; [vm_compute; reflexivity|].
  eexists. exists rs. do 3 eexists. split; [exact E|]. split; [vm_compute; reflexivity|]. split; [vm_compute; reflexivity|]. split; [vm_compute; reflexivity|]. split; discriminate.
Qed.
(** a preconditioner created once, other objects at work, then applied *)
Definition others : list (op (F:=Qc)) := [NewMat A1; New KJacobi (qc 9 1); BindCreate 1 1; BindApply 1 1; Solve 1 1 [q 3] [q 4]; Config 0 (qc 5 2); DelMat 1].
Theorem C119_created_example : exists w1 r w2 rs v, exec [NewMat A2s; New KSor (qc 9 1); Create 0 0] start = Some (w1, r) /\ exec others w1 = Some (w2, rs) /\
  option_map view (says w2 (Apply 0 b2 x2)) = Some v /\ option_map view (reply_of (f <- pc_sor (q 1) (mt_pre A2s) (mt_if A2s) ;; f b2 x2) (@Applied Qc)) = Some v.
Proof.
  destruct (@runs_exec [NewMat A2s; New KSor (qc 9 1); Create 0 0] start) as [r E]; [vm_compute; reflexivity|].
  eexists. exists r. edestruct (@runs_exec others) as [rs E']; [|do 3 eexists; split; [exact E|]; split; [exact E'|]; split]; vm_compute; reflexivity.
Qed.
Print Assumptions C119_apply_only_refuted.
Print Assumptions C119_two_objects_refuted.
Print Assumptions C119_copy_refuted.
Print Assumptions C119_sor_mixture_refuted.
Print Assumptions C119_created_example.
