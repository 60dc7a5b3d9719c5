(** * BindProof: lemmas for C119. *)
From Verif Require Import Base Scalar CrsModel DenseModel SolverModel BindModel BindSpec.
Set Implicit Arguments.

Section BindProof.
Context {F : Type} {SF : Scalar F}.

(** ** A.diag(v) overwrites v completely *)
Lemma fill_total (g : nat -> res F) n : forall v v', length v = n -> length v' = n ->
  for_ 0 n (fun i v => a <- g i ;; wr v i a) v = for_ 0 n (fun i v => a <- g i ;; wr v i a) v'.
Proof.
  set (R := fix R k := match k with 0 => Ok [] | S k => p <- R k ;; a <- g k ;; Ok (p ++ [a]) end : res (list F)).
  assert (RL : forall k p, R k = Ok p -> length p = k).
  { induction k as [|k IH]; cbn; intros p; [intros [= <-]; reflexivity|].
    destruct (R k) as [q| | | |]; cbn [bind]; try discriminate. destruct (g k); cbn [bind]; try discriminate. intros [= <-]. rewrite app_length, (IH q eq_refl). cbn. lia. }
  assert (G : forall v, length v = n -> forall k, k <= n -> for_ 0 k (fun i v => a <- g i ;; wr v i a) v = (p <- R k ;; Ok (p ++ skipn k v))).
  { intros v Hv. induction k as [|k IH]; intros Hk; [reflexivity|]. rewrite for_last, IH by lia. cbn [R]. fold R.
    destruct (R k) as [p| | | |] eqn:E; cbn [bind]; try reflexivity. destruct (g k) as [a| | | |]; cbn [bind]; try reflexivity.
    pose proof (RL _ _ E) as Lp. rewrite wr_lt by (rewrite app_length, skipn_length; lia). f_equal.
    assert (Hs : exists y t, skipn k v = y :: t /\ skipn (S k) v = t).
    { destruct (skipn k v) as [|y t] eqn:Es. - pose proof (skipn_length k v) as Q. rewrite Es in Q. cbn in Q. lia.
      - exists y, t. split; auto. clear -Es. revert v Es. induction k as [|k IH]; intros [|u v] Es; cbn in Es |- *; try discriminate; [congruence|]. now apply IH. }
    destruct Hs as (y & t & -> & ->). rewrite <- app_assoc. cbn [app]. clear -Lp. revert k Lp. induction p as [|u p IH]; intros k Lp; cbn in *; subst k; cbn; [reflexivity|]. f_equal. now apply IH. }
  intros v v' Hv Hv'. rewrite (G v Hv), (G v' Hv') by lia. destruct (R n); cbn [bind]; auto. now rewrite !skipn_all2 by lia.
Qed.

Lemma crs_diag_total (A : crs F) : diag_total (crs_mat A).
Proof.
  intros v v' H. cbn [crs_mat mt_if crs_if mi_diag]. unfold crs_diag. set (n := if m_row A <? m_col A then _ else _). rewrite <- H.
  destruct (Nat.eqb_spec n (length v)) as [E|E]; cbn [assert_ bind]; [|reflexivity].
  pose proof (@fill_total (fun _ => Ok f0) n v v' (eq_sym E) ltac:(congruence)) as Q. cbn [bind] in Q. rewrite Q. reflexivity.
Qed.
Lemma dense_diag_total (A : dense F) : diag_total (dense_mat A).
Proof.
  intros v v' H. cbn [dense_mat mt_if dense_if mi_diag]. unfold dense_diag. rewrite <- H. set (n := Nat.min _ _).
  destruct (Nat.eqb_spec n (length v)) as [E|E]; cbn [assert_ bind]; [|reflexivity].
  apply (fill_total (fun i => rd (d_val A) (d_col A * i + i))); congruence.
Qed.

(** ** worlds *)
Lemma getobj_set (w : world (F:=F)) i o j : getobj w i <> None -> getobj (setobj w i o) j = if i =? j then o else getobj w j.
Proof.
  unfold getobj, setobj. cbn [w_objs]. intros H. rewrite nth_error_upd.
  assert (Hl : i < length (w_objs w)). { apply nth_error_Some. intros E. rewrite E in H. now apply H. }
  rewrite (proj2 (Nat.ltb_lt _ _) Hl), andb_true_r. destruct (i =? j); [now destruct o|reflexivity].
Qed.
Lemma getmat_setobj (w : world (F:=F)) i o m : getmat (setobj w i o) m = getmat w m. Proof. reflexivity. Qed.
Lemma getobj_app (w : world (F:=F)) o i q ms : getobj w i = Some q -> getobj (mkWorld (w_objs w ++ [o]) ms) i = Some q.
Proof.
  unfold getobj. cbn [w_objs]. intros H. destruct (nth_error (w_objs w) i) as [x|] eqn:E; [|discriminate].
  rewrite nth_error_app1, E by (apply nth_error_Some; congruence). exact H.
Qed.
Lemma getmat_app (w : world (F:=F)) a m b os : getmat w m = Some b -> getmat (mkWorld os (w_mats w ++ [a])) m = Some b.
Proof.
  unfold getmat. cbn [w_mats]. intros H. destruct (nth_error (w_mats w) m) as [x|] eqn:E; [|discriminate].
  rewrite nth_error_app1, E by (apply nth_error_Some; congruence). exact H.
Qed.

Lemma resize_length (v : list F) n : length (resize v n) = n.
Proof. unfold resize. rewrite app_length, firstn_length, repeat_length. lia. Qed.

(** ** a solve looks at its preconditioner only through create_precond(A) *)
Lemma solve_pre_eq k c (a : mat (F:=F)) pre pre' x b li lr : pre (mt_if a) = pre' (mt_if a) -> solve k c a pre x b li lr = solve k c a pre' x b li lr.
Proof.
  intros H. destruct k; cbn [solve]; [reflexivity|..]; unfold jacobi_solve, sor_solve, cg_solve, bicgstab_solve; (destruct (s_lib c); [|reflexivity]);
    unfold monolish_jacobi, monolish_sor, monolish_cg, monolish_bicgstab; rewrite H; reflexivity.
Qed.
(** a solve that does not reach create_precond ignores it *)
Lemma solve_unreached k c (a : mat (F:=F)) pre pre' x b li lr : reaches k c a = false -> solve k c a pre x b li lr = solve k c a pre' x b li lr.
Proof.
  unfold reaches. intros H. destruct k; cbn [solve]; [reflexivity|..]; unfold jacobi_solve, sor_solve, cg_solve, bicgstab_solve; (destruct (s_lib c) as [|l]; [|reflexivity]);
    unfold monolish_jacobi, monolish_sor, monolish_cg, monolish_bicgstab; cbn [Nat.eqb] in H;
    (destruct (mi_row (mt_if a) =? mi_col (mt_if a)); [|reflexivity]); cbn [andb require_ bind] in *; try discriminate.
  - destruct (v_nrm2 b); cbn [bind]; try reflexivity. destruct (mi_diag _ _); cbn [bind]; try reflexivity. discriminate.
  - destruct (mi_diag _ _); cbn [bind]; try reflexivity. discriminate.
Qed.
(** one that does fails the way create_precond fails *)
Lemma v_nrm2_ok (b : list F) : exists v, v_nrm2 b = Ok v.
Proof. unfold v_nrm2, v_dot, leneq. rewrite Nat.eqb_refl. cbn [assert_ bind]. eauto. Qed.
Lemma solve_reached k c (a : mat (F:=F)) pre x b li lr : reaches k c a = true ->
  match pre (mt_if a) with Ok _ => True | Throw => solve k c a pre x b li lr = Throw | Abort => solve k c a pre x b li lr = Abort
    | UB => solve k c a pre x b li lr = UB | NoFuel => solve k c a pre x b li lr = NoFuel end.
Proof.
  unfold reaches. intros H. apply andb_prop in H as [H H3]. apply andb_prop in H as [H1 H2]. apply Nat.eqb_eq in H1.
  destruct (v_nrm2_ok b) as [nb Hnb].
  destruct k; [discriminate|..]; cbn [solve]; unfold jacobi_solve, sor_solve, cg_solve, bicgstab_solve; rewrite H1;
    unfold monolish_jacobi, monolish_sor, monolish_cg, monolish_bicgstab; rewrite H2; cbn [require_ bind].
  - rewrite Hnb. cbn [bind]. destruct (mi_diag _ _) as [d| | | |]; try discriminate. cbn [bind]. unfold v_recip at 1 2 3 4, leneq. rewrite Nat.eqb_refl. cbn [assert_ bind]. destruct (pre _); cbn [bind]; auto.
  - destruct (mi_diag _ _) as [d| | | |]; try discriminate. cbn [bind]. unfold v_recip, leneq, v_scal. rewrite !map_length, Nat.eqb_refl. cbn [assert_ bind]. rewrite Hnb. cbn [bind]. destruct (pre _); cbn [bind]; auto.
  - destruct (pre _); cbn [bind]; auto.
  - destruct (pre _); cbn [bind]; auto.
Qed.

(** ** creating through p and applying through p is the fresh preconditioner of p's class *)
Lemma create_apply (w : world (F:=F)) p q m a : getobj w p = Some q -> bindable (ob_kind q) = true -> getmat w m = Some a -> diag_total a ->
  (w' <- create w p m ;; Ok (apply w' p)) = fresh (ob_kind q) (s_omega (ob_cfg q)) a (mt_if a).
Proof.
  intros Hp Hb Hm Hd. unfold create. rewrite Hp, Hm. assert (Hnn : getobj w p <> None) by congruence.
  destruct (ob_kind q) eqn:Ek; cbn [fresh bind]; try discriminate.
  - unfold apply. rewrite Hp, Ek. reflexivity.
  - unfold pc_jacobi. destruct (mi_row (mt_if a) =? mi_col (mt_if a)); cbn [require_ bind]; [|reflexivity].
    rewrite (Hd (resize (ob_M q) (mi_row (mt_if a))) (repeat f0 (mi_row (mt_if a)))) by now rewrite resize_length, repeat_length.
    destruct (mi_diag _ _) as [M| | | |]; cbn [bind]; try reflexivity. destruct (v_recip M M) as [M'| | | |]; cbn [bind]; try reflexivity.
    unfold apply. rewrite getobj_set by exact Hnn. rewrite Nat.eqb_refl. cbn [set_pre ob_kind ob_M]. rewrite Ek. reflexivity.
  - unfold pc_sor. destruct (mi_row (mt_if a) =? mi_col (mt_if a)); cbn [require_ bind]; [|reflexivity].
    rewrite (Hd (resize (ob_M q) (mi_row (mt_if a))) (repeat f0 (mi_row (mt_if a)))) by now rewrite resize_length, repeat_length.
    destruct (mi_diag _ _) as [M| | | |]; cbn [bind]; try reflexivity. destruct (v_recip _ M) as [M'| | | |]; cbn [bind]; try reflexivity.
    unfold apply. rewrite getobj_set by exact Hnn. rewrite Nat.eqb_refl. cbn [set_pre ob_kind ob_M ob_A]. rewrite Ek, getmat_setobj, Hm. reflexivity.
Qed.

(** what a solve replies *)
Lemma says_solve (w : world (F:=F)) i o m a x b : getobj w i = Some o -> getmat w m = Some a ->
  says w (Solve i m x b) = reply_of (solve (ob_kind o) (ob_cfg o) a (bound_pre w o m) x b (ob_iter o) (ob_resid o)) (@Solved F).
Proof.
  intros Ho Ha. unfold says. cbn [step]. rewrite Ho, Ha.
  match goal with |- option_map snd (finish ?s ?w1 ?k) = _ => destruct s; reflexivity end.
Qed.

(** ** operations that leave p's preconditioner data alone *)
(** p has this class, these data; the matrix m this contents *)
Definition holds (w : world (F:=F)) (p m : nat) (k : kind) (M : list F) (A : option nat) (a : mat (F:=F)) : Prop :=
  (exists q, getobj w p = Some q /\ ob_kind q = k /\ ob_M q = M /\ ob_A q = A) /\ getmat w m = Some a.
Lemma holds_set (w : world (F:=F)) p m k M A a i o o' : holds w p m k M A a -> getobj w i = Some o ->
  (i = p -> ob_kind o' = ob_kind o /\ ob_M o' = ob_M o /\ ob_A o' = ob_A o) -> holds (setobj w i (Some o')) p m k M A a.
Proof.
  intros [(q & H1 & H2 & H3 & H4) H5] Ho Hi. split; [|exact H5]. rewrite getobj_set by congruence.
  destruct (Nat.eqb_spec i p) as [->|]; [|now exists q]. exists o'. destruct (Hi eq_refl) as (-> & -> & ->). assert (o = q) by congruence. subst. auto.
Qed.
Lemma create_holds (w w' : world (F:=F)) p m k M A a i j : holds w p m k M A a -> i <> p -> create w i j = Ok w' -> holds w' p m k M A a.
Proof.
  intros H Hi. unfold create. destruct (getobj w i) as [o|] eqn:Eo; [|discriminate]. destruct (getmat w j) as [aj|]; [|discriminate].
  destruct (ob_kind o); try discriminate.
  - intros [= <-]. exact H.
  - destruct (_ =? _); cbn [require_ bind]; [|discriminate]. destruct (mi_diag _ _); cbn [bind]; try discriminate. destruct (v_recip _ _); cbn [bind]; try discriminate.
    intros [= <-]. eapply holds_set; eauto. intros ->; contradiction.
  - destruct (_ =? _); cbn [require_ bind]; [|discriminate]. destruct (mi_diag _ _); cbn [bind]; try discriminate. destruct (v_recip _ _); cbn [bind]; try discriminate.
    intros [= <-]. eapply holds_set; eauto. intros ->; contradiction.
Qed.
Lemma step_holds (w w' : world (F:=F)) p m k M A a e h r : holds w p m k M A a -> quiet p m (e :: h) w -> step e w = Some (w', r) -> holds w' p m k M A a.
Proof.
  intros H [Q _] S. destruct e as [k0 c|i c|i j|i j|i j x b|i j|i r0 z|i|i|a0|j a0|j]; cbn [step] in S.
  - injection S as <- <-. destruct H as [(q & H1 & H2) H5]. split; [exists q; split; [now apply getobj_app|exact H2]|exact H5].
  - destruct (getobj w i) as [o|] eqn:E; [|discriminate]. injection S as <- <-. eapply holds_set; eauto.
  - destruct (getobj w i) as [o|] eqn:E; [|discriminate]. destruct (getobj w j); [|discriminate]. destruct (bindable _); [|discriminate]. injection S as <- <-. eapply holds_set; eauto.
  - destruct (getobj w i) as [o|] eqn:E; [|discriminate]. destruct (getobj w j); [|discriminate]. destruct (bindable _); [|discriminate]. injection S as <- <-. eapply holds_set; eauto.
  - destruct (getobj w i) as [o|] eqn:E; [|discriminate]. destruct (getmat w j) as [aj|] eqn:Ej; [|discriminate]. specialize (Q o eq_refl).
    set (w1 := if reaches _ _ _ then _ else w) in *.
    assert (H1 : holds w1 p m k M A a).
    { subst w1. destruct (reaches _ _ _); [|exact H]. destruct (ob_cre o) as [pc|] eqn:Ec; cbn [create_bound]; [|exact H].
      destruct (create w pc j) eqn:Ecr; try exact H. apply (@create_holds w _ p m k M A a pc j H); [intros ->; now apply Q|exact Ecr]. }
    destruct (solve _ _ _ _ _ _ _ _); cbn [finish] in S; try discriminate; injection S as <- <-; [|exact H1].
    destruct (getobj w1 i) as [o1|] eqn:E1; [|exact H1]. eapply holds_set; eauto.
  - destruct (create w i j) eqn:E; cbn [finish] in S; try discriminate; injection S as <- <-; [|exact H]. eapply create_holds; eauto.
  - destruct (apply w i r0 z); cbn [finish] in S; try discriminate; injection S as <- <-; exact H.
  - destruct (getobj w i) as [o|]; [|discriminate]. injection S as <- <-. destruct H as [(q & H1 & H2) H5]. split; [exists q; split; [now apply getobj_app|exact H2]|exact H5].
  - destruct (getobj w i) as [o|] eqn:E; [|discriminate]. injection S as <- <-. destruct H as [(q & H1 & H2) H5]. split; [|exact H5]. exists q. split; [|exact H2].
    rewrite getobj_set by congruence. destruct (Nat.eqb_spec i p); [contradiction|exact H1].
  - injection S as <- <-. destruct H as [H1 H5]. split; [exact H1|]. now apply getmat_app.
  - destruct (getmat w j) eqn:E; [|discriminate]. injection S as <- <-. destruct H as [H1 H5]. split; [exact H1|].
    unfold getmat in *. cbn [w_mats]. rewrite nth_error_upd. destruct (Nat.eqb_spec j m); [contradiction|exact H5].
  - destruct (getmat w j) eqn:E; [|discriminate]. injection S as <- <-. destruct H as [H1 H5]. split; [exact H1|].
    unfold getmat in *. cbn [w_mats]. rewrite nth_error_upd. destruct (Nat.eqb_spec j m); [contradiction|exact H5].
Qed.
Lemma exec_holds p m k M A a : forall h (w w' : world (F:=F)) rs, holds w p m k M A a -> quiet p m h w -> exec h w = Some (w', rs) -> holds w' p m k M A a.
Proof.
  induction h as [|e h IH]; intros w w' rs H Q E; cbn [exec] in E; [injection E as <- <-; exact H|].
  destruct (step e w) as [[w1 r]|] eqn:S; [|discriminate]. destruct (exec h w1) as [[w2 rs2]|] eqn:E2; [|discriminate]. injection E as <- <-.
  eapply IH; [|exact (proj2 Q _ _ S)|exact E2]. eapply step_holds; eauto.
Qed.
(** ** only the matrix operations change matrices *)
Definition mat_effect (ms : list (option (mat (F:=F)))) (e : op (F:=F)) : list (option mat) :=
  match e with NewMat a => ms ++ [Some a] | SetMat m a => upd ms m (Some a) | DelMat m => upd ms m None | _ => ms end.
Lemma create_mats (w w' : world (F:=F)) p m : create w p m = Ok w' -> w_mats w' = w_mats w.
Proof.
  unfold create. destruct (getobj w p) as [o|]; [|discriminate]. destruct (getmat w m) as [a|]; [|discriminate]. destruct (ob_kind o); try discriminate.
  - now intros [= <-].
  - destruct (_ =? _); cbn [require_ bind]; [|discriminate]. destruct (mi_diag _ _); cbn [bind]; try discriminate. destruct (v_recip _ _); cbn [bind]; try discriminate. now intros [= <-].
  - destruct (_ =? _); cbn [require_ bind]; [|discriminate]. destruct (mi_diag _ _); cbn [bind]; try discriminate. destruct (v_recip _ _); cbn [bind]; try discriminate. now intros [= <-].
Qed.
Lemma step_mats (w w' : world (F:=F)) e r : step e w = Some (w', r) -> w_mats w' = mat_effect (w_mats w) e.
Proof.
  intros S. destruct e as [k0 c|i c|i j|i j|i j x b|i j|i r0 z|i|i|a0|j a0|j]; cbn [step mat_effect] in *.
  5:{ destruct (getobj w i) as [o|] eqn:E; [|discriminate]. destruct (getmat w j) as [aj|] eqn:Ej; [|discriminate].
    set (w1 := if reaches _ _ _ then _ else w) in *.
    assert (H1 : w_mats w1 = w_mats w).
    { subst w1. destruct (reaches _ _ _); [|reflexivity]. destruct (ob_cre o) as [pc|]; cbn [create_bound]; [|reflexivity]. destruct (create w pc j) eqn:Ecr; try reflexivity. eapply create_mats; eauto. }
    destruct (solve _ _ _ _ _ _ _ _); cbn [finish] in S; try discriminate; injection S as <- <-; [|exact H1]. destruct (getobj w1 i); exact H1. }
  5:{ destruct (create w i j) eqn:E; cbn [finish] in S; try discriminate; injection S as <- <-; [|reflexivity]. eapply create_mats; eauto. }
  5:{ destruct (apply w i r0 z); cbn [finish] in S; try discriminate; now injection S as <- <-. }
  all: repeat match type of S with match ?m with _ => _ end = _ => destruct m; try discriminate end; injection S as <- <-; reflexivity.
Qed.
Lemma exec_mats : forall h (w w' : world (F:=F)) rs, exec h w = Some (w', rs) -> w_mats w' = fold_left mat_effect h (w_mats w).
Proof.
  induction h as [|e h IH]; intros w w' rs E; cbn [exec] in E; [injection E as <- <-; reflexivity|].
  destruct (step e w) as [[w1 r]|] eqn:S; [|discriminate]. destruct (exec h w1) as [[w2 rs2]|] eqn:E2; [|discriminate]. injection E as <- <-.
  cbn [fold_left]. rewrite <- (step_mats _ _ S). eapply IH; eauto.
Qed.
End BindProof.
