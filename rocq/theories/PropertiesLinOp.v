(** * PropertiesLinOp: C33 (LinearOperator).

    Vocabulary (LinOpSpec): [computes w t a p q g]: blas::matvec (t = false) or blas::rmatvec (t = true)
    of operator a returns g x for every x of length p, a vector of length q; [is_matrix]: the same with
    g = multiplication by a matrix; [built_on w a c]: operator a was built from operator c;
    [same_except c w w']: no object but operator c differs. *)
From Verif Require Import Base Scalar Spec SumFacts DenseModel CooModel CrsModel CooMiscProof CrsMiscProof Observe CrsObserve SolverModel
  LinOpModel LinOpSpec LinOpProof LinOpProof2 Loops PropertiesCrs.
Set Implicit Arguments.

Section Generic.
Context {F : Type} {SF : Scalar F} {SC : Schedule}.
Local Open Scope F_scope.

(** ** sums and differences of operators, any arithmetic *)
Theorem C33_matadd (w : world F) a b c A B C :
  w_op w a = Some A -> w_op w b = Some B -> w_op w c = Some C ->
  l_row A = l_row B -> l_col A = l_col B -> l_row A = l_row C -> l_col A = l_col C ->
  same_funs A B = true -> ~ built_on w a c -> ~ built_on w b c ->
  exists w', op_matadd w a b c = Ok w' /\ same_except c w w' /\
    forall t g h, computes w t a (l_in t A) (l_out t A) g -> computes w t b (l_in t A) (l_out t A) h ->
      computes w' t c (l_in t A) (l_out t A) (fun x => map (fun i => fn (g x) i + 1 * fn (h x) i) (seq 0 (l_out t A))).
Proof. intros. eapply axpy_gen; eauto. Qed.

Theorem C33_matsub (w : world F) a b c A B C :
  w_op w a = Some A -> w_op w b = Some B -> w_op w c = Some C ->
  l_row A = l_row B -> l_col A = l_col B -> l_row A = l_row C -> l_col A = l_col C ->
  same_funs A B = true -> ~ built_on w a c -> ~ built_on w b c ->
  exists w', op_matsub w a b c = Ok w' /\ same_except c w w' /\
    forall t g h, computes w t a (l_in t A) (l_out t A) g -> computes w t b (l_in t A) (l_out t A) h ->
      computes w' t c (l_in t A) (l_out t A) (fun x => map (fun i => fn (g x) i + (- (1)) * fn (h x) i) (seq 0 (l_out t A))).
Proof. intros. eapply axpy_gen; eauto. Qed.

(** vml::add(A, B, C) and vml::sub(A, B, C) *)
Theorem C33_vml_add (w : world F) a b c A B C :
  w_op w a = Some A -> w_op w b = Some B -> w_op w c = Some C ->
  l_row A = l_row B -> l_col A = l_col B -> l_row A = l_row C -> l_col A = l_col C ->
  same_funs A B = true -> ~ built_on w a c -> ~ built_on w b c ->
  exists w', op_vadd w a b c = Ok w' /\ same_except c w w' /\
    forall t g h, computes w t a (l_in t A) (l_out t A) g -> computes w t b (l_in t A) (l_out t A) h ->
      computes w' t c (l_in t A) (l_out t A) (fun x => map (fun i => fn (g x) i + 1 * fn (h x) i) (seq 0 (l_out t A))).
Proof. intros. eapply axpy_gen; eauto. Qed.

Theorem C33_vml_sub (w : world F) a b c A B C :
  w_op w a = Some A -> w_op w b = Some B -> w_op w c = Some C ->
  l_row A = l_row B -> l_col A = l_col B -> l_row A = l_row C -> l_col A = l_col C ->
  ~ built_on w a c -> ~ built_on w b c ->
  exists w', op_vsub w a b c = Ok w' /\ same_except c w w' /\
    forall t g h, computes w t a (l_in t A) (l_out t A) g -> computes w t b (l_in t A) (l_out t A) h ->
      computes w' t c (l_in t A) (l_out t A) (fun x => map (fun i => fn (g x) i + (- (1)) * fn (h x) i) (seq 0 (l_out t A))).
Proof. intros. eapply axpy_gen; eauto. discriminate. Qed.

(** ** product of operators: first B then A (matvec); first A^T then B^T (rmatvec) *)
Theorem C33_matmul (w : world F) a b c A B C :
  w_op w a = Some A -> w_op w b = Some B -> w_op w c = Some C ->
  l_col A = l_row B -> l_row A = l_row C -> l_col B = l_col C -> same_funs A B = true ->
  ~ built_on w a c -> ~ built_on w b c ->
  exists w', op_matmul w a b c = Ok w' /\ same_except c w w' /\
    (forall g h, computes w false a (l_col A) (l_row A) g -> computes w false b (l_col B) (l_row B) h ->
       computes w' false c (l_col B) (l_row A) (fun x => g (h x))) /\
    (forall g h, computes w true a (l_row A) (l_col A) g -> computes w true b (l_row B) (l_col B) h ->
       computes w' true c (l_row A) (l_col B) (fun x => h (g x))).
Proof. intros. eapply matmul_gen; eauto. Qed.

(** ** operator and scalar, the scalar being a variable that stays alive *)
Theorem C33_scalar_mul (w : world F) a al c A C alpha :
  w_op w a = Some A -> w_op w c = Some C -> w_sc w al = Some alpha ->
  l_row A = l_row C -> l_col A = l_col C -> ~ built_on w a c ->
  exists w', op_muls w a al c = Ok w' /\ same_except c w w' /\
    forall t g, computes w t a (l_in t A) (l_out t A) g ->
      computes w' t c (l_in t A) (l_out t A) (fun x => map (fun v => v * alpha) (g x)).
Proof.
  intros EA EC Hal R C0 Na. apply (@scalar_gen F SF SC _ (fun x y => map (fun v => v * alpha) y) w a c A C); auto.
  intros w' t p q g x Hs Hg Hx. split; [apply map_length|]. eapply (@kscale_computes F SF SC w' t (fun v => v)); eauto. now rewrite Hs.
Qed.

Theorem C33_scalar_div (w : world F) a al c A C alpha :
  w_op w a = Some A -> w_op w c = Some C -> w_sc w al = Some alpha ->
  l_row A = l_row C -> l_col A = l_col C -> ~ built_on w a c ->
  exists w', op_divs w a al c = Ok w' /\ same_except c w w' /\
    forall t g, computes w t a (l_in t A) (l_out t A) g ->
      computes w' t c (l_in t A) (l_out t A) (fun x => map (fun v => v * (1 / alpha)) (g x)).
Proof.
  intros EA EC Hal R C0 Na. apply (@scalar_gen F SF SC _ (fun x y => map (fun v => v * (1 / alpha)) y) w a c A C); auto.
  intros w' t p q g x Hs Hg Hx. split; [apply map_length|]. eapply (@kscale_computes F SF SC w' t (fun v => 1 / v)); eauto. now rewrite Hs.
Qed.

(** A + alpha: the matrix whose every element is increased by alpha *)
Theorem C33_scalar_add (w : world F) a al c A C alpha :
  w_op w a = Some A -> w_op w c = Some C -> w_sc w al = Some alpha ->
  l_row A = l_row C -> l_col A = l_col C -> ~ built_on w a c ->
  exists w', op_adds w a al c = Ok w' /\ same_except c w w' /\
    forall t g, computes w t a (l_in t A) (l_out t A) g ->
      computes w' t c (l_in t A) (l_out t A) (fun x => map (fun v => v + alpha * sum_n (length x) (fn x)) (g x)).
Proof.
  intros EA EC Hal R C0 Na. apply (@scalar_gen F SF SC _ (fun x y => map (fun v => v + alpha * sum_n (length x) (fn x)) y) w a c A C); auto.
  intros w' t p q g x Hs Hg Hx. split; [apply map_length|]. rewrite <- l_sum_sum.
  eapply (@kshift_computes F SF SC w' t fadd); eauto. now rewrite Hs.
Qed.

Theorem C33_scalar_sub (w : world F) a al c A C alpha :
  w_op w a = Some A -> w_op w c = Some C -> w_sc w al = Some alpha ->
  l_row A = l_row C -> l_col A = l_col C -> ~ built_on w a c ->
  exists w', op_subs w a al c = Ok w' /\ same_except c w w' /\
    forall t g, computes w t a (l_in t A) (l_out t A) g ->
      computes w' t c (l_in t A) (l_out t A) (fun x => map (fun v => v - alpha * sum_n (length x) (fn x)) (g x)).
Proof.
  intros EA EC Hal R C0 Na. apply (@scalar_gen F SF SC _ (fun x y => map (fun v => v - alpha * sum_n (length x) (fn x)) y) w a c A C); auto.
  intros w' t p q g x Hs Hg Hx. split; [apply map_length|]. rewrite <- l_sum_sum.
  eapply (@kshift_computes F SF SC w' t fsub); eauto. now rewrite Hs.
Qed.

(** other operators keep computing what they computed *)
Theorem C33_others_unchanged (w w' : world F) c C C' :
  w_op w c = Some C -> w_op w' c = Some C' -> same_except c w w' ->
  forall t a p q g, ~ built_on w a c -> computes w t a p q g -> computes w' t a p q g.
Proof. exact (@frame_computes F SF SC w w' c C C'). Qed.

(** The operands are captured by reference: in EVERY later world in which the result object still is
    what matadd made it, it computes the sum of what the operands compute then (not what they computed
    when matadd was called). *)
Theorem C33_matadd_follows_operands (w w1 w2 : world F) a b c C t p q g h :
  op_matadd w a b c = Ok w1 -> w_op w1 c = Some C -> w_op w2 c = Some C -> a <> c -> l_in t C = p -> l_out t C = q ->
  (forall A, w_op w a = Some A -> has (l_fun t A) = true) ->
  computes w2 t a p q g -> computes w2 t b p q h ->
  computes w2 t c p q (fun x => map (fun i => fn (g x) i + 1 * fn (h x) i) (seq 0 q)).
Proof.
  intros E E1 E2 Hne Hi Ho Hf Hg Hh. unfold op_matadd, op_axpy in E.
  apply get_inv in E. destruct E as (A & EA & E). apply get_inv in E. destruct E as (B & EB & E).
  apply get_inv in E. destruct E as (C0 & EC & E).
  apply bind_ok in E. destruct E as (u & _ & E). apply bind_ok in E. destruct E as (u' & _ & E).
  destruct (@builder_ok F w a A c C0 (fun t => KAxpy t f1 a b) EA EC Hne) as (w' & C' & E' & _ & EC' & _ & _ & _ & _ & HF & _).
  cbn [bind] in E, E'. rewrite E' in E. inversion E; subst w'. rewrite E1 in EC'. inversion EC'; subst C'.
  apply (@fun_computes F SF SC w2 t c C (KAxpy t f1 a b)); auto.
  intros x Hx. split; [now rewrite map_length, seq_length|]. apply (@kaxpy_computes F SF SC w2 t f1 a b p q g h x); auto.
Qed.

(** ** using the result after an operand has been destroyed is undefined *)
Theorem C33_destroyed_operand_refuted (w w1 w2 : world F) a b c C (x y : list F) n :
  op_matadd w a b c = Ok w1 -> w_op w1 c = Some C -> w_op w2 c = Some C -> a <> c ->
  (forall A, w_op w a = Some A -> has (l_mv A) = true) ->
  w_op w2 a = None -> length x = l_col C -> length y = l_row C ->
  op_matvec (S n) w2 c x y = UB.
Proof.
  intros E E1 E2 Hne Hf Hd Hx Hy. unfold op_matadd, op_axpy in E.
  apply get_inv in E. destruct E as (A & EA & E). apply get_inv in E. destruct E as (B & EB & E).
  apply get_inv in E. destruct E as (C0 & EC & E).
  apply bind_ok in E. destruct E as (u & _ & E). apply bind_ok in E. destruct E as (u' & _ & E).
  destruct (@builder_ok F w a A c C0 (fun t => KAxpy t f1 a b) EA EC Hne) as (w' & C' & E' & _ & EC' & _ & _ & _ & _ & HF & _).
  cbn [bind] in E, E'. rewrite E' in E. inversion E; subst w'. rewrite E1 in EC'. inversion EC'; subst C'.
  pose proof (HF false (Hf A EA)) as Ek. cbn [l_fun] in Ek.
  unfold op_matvec, opvec. rewrite (get_ok _ _ E2). cbn [bind l_out l_in l_fun]. rewrite Hx, Hy, !Nat.eqb_refl, Ek. cbn [assert_ bind].
  cbn [call]. unfold get. rewrite Hd. reflexivity.
Qed.

(** ** in place: matadd(A, B, A) makes A call itself; no call of it ever returns *)
Theorem C33_in_place_matadd_refuted (w w' : world F) a b A n (x y : list F) :
  w_op w a = Some A -> has (l_mv A) = true -> op_matadd w a b a = Ok w' ->
  length x = l_col A -> length y = l_row A ->
  op_matvec n w' a x y = NoFuel.
Proof.
  intros EA Hm E Hx Hy. unfold op_matadd, op_axpy in E. rewrite (get_ok _ _ EA) in E. cbn [bind] in E.
  apply get_inv in E. destruct E as (B & EB & E).
  apply bind_ok in E. destruct E as (u & _ & E). apply bind_ok in E. destruct E as (u' & _ & E). cbn [bind] in E.
  rewrite Hm in E. cbn [set_if] in E. apply get_inv in E. destruct E as (A1 & EA1 & E). rewrite w_op_set in EA1. inversion EA1; subst A1.
  inversion E; subst w'. clear E EA1.
  set (A2 := set_if (has (l_rmv (set_fun false A (KAxpy false f1 a b)))) true (set_fun false A (KAxpy false f1 a b)) (KAxpy true f1 a b)).
  assert (EA2 : w_op (set_op (set_op w a (Some (set_fun false A (KAxpy false f1 a b)))) a (Some A2)) a = Some A2) by apply w_op_set.
  assert (HR : l_row A2 = l_row A /\ l_col A2 = l_col A /\ l_mv A2 = Some (KAxpy false f1 a b)).
  { unfold A2. destruct (has (l_rmv _)); repeat split; reflexivity. }
  destruct HR as (HR & HC & HK).
  eapply (@opvec_self_nofuel F SF SC _ false a A2); cbn [l_in l_out l_fun]; eauto; try congruence.
  eapply call_nofuel_axpy; eauto. cbn. congruence.
Qed.

(** ** vml::mul(A, 2.0, C): the literal is a temporary, dead when C is used: undefined.
    [al] is the temporary: destroyed ([w_sc] = None) at the end of the statement. *)
Theorem C33_scalar_temporary_refuted (w w1 w2 : world F) a al c A C t (x y : list F) g :
  w_op w a = Some A -> a <> c -> op_muls w a al c = Ok w1 -> w_op w1 c = Some C -> w_op w2 c = Some C ->
  w_sc w2 al = None -> has (l_fun t A) = true -> computes w2 t a (l_in t C) (l_out t C) g ->
  length x = l_in t C -> length y = l_out t C ->
  exists n, forall m, n <= m -> op_apply t m w2 c x y = UB.
Proof.
  intros EA Hne E E1 E2 Hd Hf Hg Hx Hy. unfold op_muls, op_scalar in E.
  rewrite (get_ok _ _ EA) in E. cbn [bind] in E. apply get_inv in E. destruct E as (C0 & EC & E).
  apply bind_ok in E. destruct E as (u & _ & E).
  destruct (@builder_ok F w a A c C0 (fun t => KScale t (fun v => v) a al) EA EC Hne) as (w' & C' & E' & _ & EC' & _ & _ & _ & _ & HF & _).
  cbn [bind] in E, E'. rewrite E' in E. inversion E; subst w'. rewrite E1 in EC'. inversion EC'; subst C'.
  destruct (computes_opvec _ Hg Hx) as (n & Hn). destruct (computes_op Hg) as (A2 & EA2 & Hi & Ho).
  exists (S n). intros m Hm. destruct m as [|m]; [lia|]. rewrite op_apply_opvec. unfold opvec at 1. rewrite (get_ok _ _ E2). cbn [bind].
  rewrite Hx, Hy, !Nat.eqb_refl, (HF t Hf). cbn [assert_ bind]. cbn [call]. rewrite (get_ok _ _ EA2). cbn [bind].
  rewrite Ho, Hn by lia. cbn [bind]. unfold get. rewrite Hd. reflexivity.
Qed.

(** ** convert_to_Dense: the columns are the images of the unit vectors *)
Theorem C33_to_dense (w : world F) a A (g : list F -> list F) (d : dense F) :
  w_op w a = Some A -> computes w false a (l_col A) (l_row A) g -> dense_ok d -> d_row d = l_row A -> d_col d = l_col A ->
  exists d' n, (forall m, n <= m -> op_to_dense m w A d = Ok d') /\ dense_ok d' /\ d_row d' = l_row A /\ d_col d' = l_col A /\
    forall i j, i < l_row A -> j < l_col A -> dense_fn d' i j = fn (g (unit_vec (l_col A) j)) i.
Proof. exact (@to_dense_ok F SF SC w a A g d). Qed.

(** the target must already have the operator's shape, otherwise the program aborts (no conversion) *)
Theorem C33_to_dense_shape (w : world F) a A (g : list F -> list F) (d : dense F) :
  w_op w a = Some A -> computes w false a (l_col A) (l_row A) g -> d_row d <> l_row A \/ d_col d <> l_col A ->
  exists n, forall m, n <= m -> op_to_dense m w A d = Abort.
Proof.
  intros EA Hc Hd.
  destruct (@to_dense_ok F SF SC w a A g (mkDense (l_row A) (l_col A) (repeat f0 (l_row A * l_col A)) 0 (l_row A * l_col A) (l_row A * l_col A) true))
    as (d' & n & E & _); auto. { unfold dense_ok. cbn. rewrite repeat_length. auto. }
  exists n. intros m Hm. specialize (E m Hm). unfold op_to_dense in *. destruct (has (l_mv A)).
  - apply bind_ok in E. destruct E as (vals & E1 & E). rewrite E1. cbn [bind]. apply bind_ok in E. destruct E as (D & E2 & E). rewrite E2. cbn [bind].
    unfold dense_assign in *. cbn [d_row d_col] in E.
    destruct ((l_row A =? d_row D) && (l_col A =? d_col D)) eqn:Eb; [|discriminate].
    apply andb_true_iff in Eb. destruct Eb as [Eb1 Eb2]. apply Nat.eqb_eq in Eb1, Eb2. rewrite <- Eb1, <- Eb2.
    destruct Hd as [Hd|Hd]; rewrite (proj2 (Nat.eqb_neq _ _) Hd); [reflexivity|]. now rewrite andb_false_r.
  - rewrite dense_new_ok. cbn [bind]. unfold dense_assign. cbn [d_row d_col].
    destruct Hd as [Hd|Hd]; rewrite (proj2 (Nat.eqb_neq _ _) Hd); [reflexivity|]. now rewrite andb_false_r.
Qed.

(** an operator without matvec (for example one made from a matmul function only) is converted to the
    zero matrix, silently: the matrix does not represent the operator *)
Theorem C33_to_dense_no_matvec (w : world F) A (d : dense F) n :
  l_mv A = None -> dense_ok d -> d_row d = l_row A -> d_col d = l_col A ->
  exists d', op_to_dense n w A d = Ok d' /\ forall i j, i < l_row A -> j < l_col A -> dense_fn d' i j = 0.
Proof.
  intros E W Hr Hc. unfold op_to_dense. rewrite E. cbn [has]. rewrite dense_new_ok. cbn [bind].
  set (D := mkDense (l_row A) (l_col A) (repeat f0 (l_row A * l_col A)) 0 (l_row A * l_col A) (l_row A * l_col A) true).
  destruct (@dense_assign_ok F SF d D) as (d' & Ed & _ & _ & _ & HF); auto.
  { unfold dense_ok, D. cbn. rewrite repeat_length. auto. }
  exists d'. split; auto. intros i j Hi Hj. rewrite HF by lia. unfold dense_fn, D. cbn. apply nth_repeat. nia.
Qed.

(** ** diag, under every distribution of the iterations over threads *)
Theorem C33_diag (w : world F) a A (g : list F -> list F) v :
  sched_valid SC -> w_op w a = Some A -> computes w false a (l_col A) (l_row A) g -> length v = Nat.min (l_row A) (l_col A) ->
  exists n, forall m, n <= m ->
    op_diag m w A v = Ok (map (fun i => fn (g (unit_vec (l_col A) i)) i) (seq 0 (Nat.min (l_row A) (l_col A)))).
Proof. exact (@diag_ok F SF SC w a A g v). Qed.

(** ** copies *)

(** the copy constructor preserves matvec and rmatvec: the copy computes what the original computes *)
Theorem C33_copy_ctor_partial (w w' : world F) a c A C :
  w_op w a = Some A -> w_op w c = Some C -> ~ built_on w a c -> w' = set_op w c (Some (op_copy_ctor A)) ->
  forall t p q g, computes w t a p q g -> computes w' t c p q g.
Proof.
  intros EA EC Na -> t p q g H. destruct (computes_fun H) as (A0 & k & EA0 & Hi & Ho & Ek & G). rewrite EA in EA0. inversion EA0; subst A0.
  eapply (@fun_computes F SF SC _ t c (op_copy_ctor A) k); [apply w_op_set| | | |].
  - destruct t; exact Hi.
  - destruct t; exact Ho.
  - destruct t; exact Ek.
  - intros x Hx. destruct (G x Hx) as (HL & n & Hn). split; auto. exists n. intros m Hm.
    rewrite (@frame_gen F SF SC w (set_op w c (Some (op_copy_ctor A))) c C (op_copy_ctor A)); auto.
    + apply w_op_set.
    + apply same_except_set.
    + intros a' Hin Hb. apply Na. econstructor; eauto.
Qed.

(** operator=: for a function that is set in the source, the target computes what the source computes *)
Theorem C33_assign_partial (w w' : world F) a c A C :
  w_op w a = Some A -> w_op w c = Some C -> ~ built_on w a c -> w' = set_op w c (Some (op_assign A C)) ->
  forall t p q g, computes w t a p q g -> computes w' t c p q g.
Proof.
  intros EA EC Na -> t p q g H. destruct (computes_fun H) as (A0 & k & EA0 & Hi & Ho & Ek & G). rewrite EA in EA0. inversion EA0; subst A0.
  assert (HQ : l_in t (op_assign A C) = l_in t A /\ l_out t (op_assign A C) = l_out t A /\ l_fun t (op_assign A C) = l_fun t A).
  { unfold op_assign, copy_funs. destruct t; cbn [l_fun] in *; rewrite Ek; [destruct (l_mv A)|destruct (l_rmv A)]; cbn; rewrite ?Ek; auto. }
  destruct HQ as (Q1 & Q2 & Q3).
  eapply (@fun_computes F SF SC _ t c (op_assign A C) k); [apply w_op_set|congruence|congruence|congruence|].
  intros x Hx. destruct (G x Hx) as (HL & n & Hn). split; auto. exists n. intros m Hm.
  rewrite (@frame_gen F SF SC w (set_op w c (Some (op_assign A C))) c C (op_assign A C)); auto.
  - apply w_op_set.
  - apply same_except_set.
  - intros a' Hin Hb. apply Na. econstructor; eauto.
Qed.

(** ** operator times Dense uses the stored function, and throws when there is none *)
Theorem C33_matmul_dense_unset (w : world F) (t : bool) a A (B C : dense F) :
  w_op w a = Some A -> (if t then l_rmm A else l_mm A) = None ->
  l_in t A = d_row B -> l_out t A = d_row C -> d_col B = d_col C ->
  op_dense_matmul t w a B C = Throw.
Proof.
  intros EA E H1 H2 H3. unfold op_dense_matmul. rewrite (get_ok _ _ EA). cbn [bind]. rewrite H1, H2, H3, !Nat.eqb_refl, E. reflexivity.
Qed.

End Generic.

(** ** exact arithmetic: operators as matrices *)
Section Exact.
Context {F : Type} {SF : Scalar F} {SC : Schedule} (Hex : exact SF).
Local Open Scope F_scope.
Let Hrt : ring_theory f0 f1 fadd fmul fsub fopp (@eq F) := Hex.
Add Ring FringLOP : Hrt.

Theorem C33_matadd_matrix (w : world F) a b c A B C :
  w_op w a = Some A -> w_op w b = Some B -> w_op w c = Some C ->
  l_row A = l_row B -> l_col A = l_col B -> l_row A = l_row C -> l_col A = l_col C ->
  same_funs A B = true -> ~ built_on w a c -> ~ built_on w b c ->
  exists w', op_matadd w a b c = Ok w' /\
    forall t MA MB, is_matrix w t a (l_in t A) (l_out t A) MA -> is_matrix w t b (l_in t A) (l_out t A) MB ->
      is_matrix w' t c (l_in t A) (l_out t A) (fun i j => MA i j + MB i j).
Proof.
  intros H1 H2 H3 H4 H5 H6 H7 H8 H9 H10. destruct (C33_matadd H1 H2 H3 H4 H5 H6 H7 H8 H9 H10) as (w' & E & _ & H). exists w'. split; auto.
  intros t MA MB (g & Cg & Hg) (h & Ch & Hh). eexists. split; [apply H; eauto|]. intros x i Hx Hi. unfold fn at 1. rewrite nth_map_seq by auto.
  cbn [Nat.add]. rewrite Hg, Hh by auto. rewrite (mv_axpy Hex). apply (@mv_ext F SF); auto. intros j Hj. ring.
Qed.

Theorem C33_matsub_matrix (w : world F) a b c A B C :
  w_op w a = Some A -> w_op w b = Some B -> w_op w c = Some C ->
  l_row A = l_row B -> l_col A = l_col B -> l_row A = l_row C -> l_col A = l_col C ->
  same_funs A B = true -> ~ built_on w a c -> ~ built_on w b c ->
  exists w', op_matsub w a b c = Ok w' /\
    forall t MA MB, is_matrix w t a (l_in t A) (l_out t A) MA -> is_matrix w t b (l_in t A) (l_out t A) MB ->
      is_matrix w' t c (l_in t A) (l_out t A) (fun i j => MA i j - MB i j).
Proof.
  intros H1 H2 H3 H4 H5 H6 H7 H8 H9 H10. destruct (C33_matsub H1 H2 H3 H4 H5 H6 H7 H8 H9 H10) as (w' & E & _ & H). exists w'. split; auto.
  intros t MA MB (g & Cg & Hg) (h & Ch & Hh). eexists. split; [apply H; eauto|]. intros x i Hx Hi. unfold fn at 1. rewrite nth_map_seq by auto.
  cbn [Nat.add]. rewrite Hg, Hh by auto. rewrite (mv_axpy Hex). apply (@mv_ext F SF); auto. intros j Hj. ring.
Qed.

(** the product operator is the product matrix; its rmatvec is the product of the transposed actions *)
Theorem C33_matmul_matrix (w : world F) a b c A B C :
  w_op w a = Some A -> w_op w b = Some B -> w_op w c = Some C ->
  l_col A = l_row B -> l_row A = l_row C -> l_col B = l_col C -> same_funs A B = true ->
  ~ built_on w a c -> ~ built_on w b c ->
  exists w', op_matmul w a b c = Ok w' /\
    (forall MA MB, is_matrix w false a (l_col A) (l_row A) MA -> is_matrix w false b (l_col B) (l_row B) MB ->
       is_matrix w' false c (l_col B) (l_row A) (mm (l_row B) MA MB)) /\
    (forall MA MB, is_matrix w true a (l_row A) (l_col A) (fun j i => MA i j) -> is_matrix w true b (l_row B) (l_col B) (fun j i => MB i j) ->
       is_matrix w' true c (l_row A) (l_col B) (fun j i => mm (l_row B) MA MB i j)).
Proof.
  intros H1 H2 H3 H4 H5 H6 H7 H8 H9. destruct (C33_matmul H1 H2 H3 H4 H5 H6 H7 H8 H9) as (w' & E & _ & Hf & Ht). exists w'. split; auto. split.
  - intros MA MB (g & Cg & Hg) (h & Ch & Hh). eexists. split; [apply Hf; eauto|]. intros x i Hx Hi.
    pose proof (computes_len _ Ch Hx) as HL. cbn beta. rewrite Hg by (auto; lia). rewrite H4. rewrite <- (mv_mm Hex). apply (@mv_ext F SF); auto.
  - intros MA MB (g & Cg & Hg) (h & Ch & Hh). eexists. split; [apply Ht; eauto|]. intros x i Hx Hi.
    pose proof (computes_len _ Cg Hx) as HL. cbn beta. rewrite Hh by (auto; lia).
    rewrite (@mv_ext F SF (l_row B) (fun j i => MB i j) (fun j i => MB i j) (fn (g x)) (mv (l_row A) (fun j i => MA i j) (fn x))); auto.
    2:{ intros j Hj. apply Hg; auto. lia. }
    rewrite (mv_mm Hex). apply (@mv_ext F SF); auto. intros j Hj. unfold mm. apply sum_ext. intros k Hk. ring.
Qed.

Theorem C33_scalar_matrix (w : world F) a al c A C alpha :
  w_op w a = Some A -> w_op w c = Some C -> w_sc w al = Some alpha ->
  l_row A = l_row C -> l_col A = l_col C -> ~ built_on w a c ->
  exists w1 w2 w3, op_adds w a al c = Ok w1 /\ op_subs w a al c = Ok w2 /\ op_muls w a al c = Ok w3 /\
    forall t MA, is_matrix w t a (l_in t A) (l_out t A) MA ->
      is_matrix w1 t c (l_in t A) (l_out t A) (fun i j => MA i j + alpha) /\
      is_matrix w2 t c (l_in t A) (l_out t A) (fun i j => MA i j - alpha) /\
      is_matrix w3 t c (l_in t A) (l_out t A) (fun i j => alpha * MA i j).
Proof.
  intros H1 H2 H3 H4 H5 H6.
  destruct (C33_scalar_add al H1 H2 H3 H4 H5 H6) as (w1 & E1 & _ & G1). destruct (C33_scalar_sub al H1 H2 H3 H4 H5 H6) as (w2 & E2 & _ & G2).
  destruct (C33_scalar_mul al H1 H2 H3 H4 H5 H6) as (w3 & E3 & _ & G3).
  exists w1, w2, w3. do 3 (split; auto). intros t MA (g & Cg & Hg).
  assert (HN : forall f x i, length x = l_in t A -> (i < l_out t A)%nat -> fn (map f (g x)) i = f (mv (l_in t A) MA (fn x) i)).
  { intros f x i Hx Hi. unfold fn. rewrite nth_indep with (d' := f 0) by (rewrite map_length, (computes_len _ Cg Hx); auto).
    rewrite map_nth. f_equal. apply Hg; auto. }
  split; [|split].
  - eexists. split; [apply G1; eauto|]. intros x i Hx Hi. cbn beta. rewrite (HN (fun v => v + alpha * sum_n (length x) (fn x))) by auto. rewrite Hx.
    unfold mv. rewrite <- (sum_scal Hex), <- (sum_add Hex). apply sum_ext. intros j Hj. ring.
  - eexists. split; [apply G2; eauto|]. intros x i Hx Hi. cbn beta. rewrite (HN (fun v => v - alpha * sum_n (length x) (fn x))) by auto. rewrite Hx.
    unfold mv. rewrite <- (sum_scal Hex), <- (sum_sub Hex). apply sum_ext. intros j Hj. ring.
  - eexists. split; [apply G3; eauto|]. intros x i Hx Hi. cbn beta. rewrite (HN (fun v => v * alpha)) by auto.
    unfold mv. rewrite <- (sum_scal_r Hex). apply sum_ext. intros j Hj. ring.
Qed.

(** matrix -> operator: the operator is the matrix *)
Theorem C33_convert_crs (w : world F) this m a A :
  w_crs w m = Some a -> w_op w this = Some A -> crs_readable a ->
  exists w', op_convert_crs w this m = Ok w' /\ is_matrix w' false this (m_col a) (m_row a) (summed (crs_entries a)).
Proof.
  intros H1 H2 H3. destruct (convert_crs_computes w this m H1 H2 H3) as (w' & E & _ & Hc). exists w'. split; auto.
  eexists. split; [exact Hc|]. intros x i Hx Hi.
  destruct (@C11_crs_matvec_exact F SF a x (repeat f0 (m_row a)) Hex H3 Hx (repeat_length _ _)) as (y' & E' & _ & HY).
  rewrite C11_crs_matvec in E' by (auto; apply repeat_length). inversion E'. rewrite <- HY by auto. congruence.
Qed.

Theorem C33_convert_dense (w : world F) this m d A :
  w_dense w m = Some d -> w_op w this = Some A -> dense_ok d ->
  exists w', op_convert_dense w this m = Ok w' /\ is_matrix w' false this (d_col d) (d_row d) (dense_fn d).
Proof.
  intros H1 H2 H3. destruct (convert_dense_computes w this m H1 H2 H3) as (w' & E & _ & Hc). exists w'. split; auto.
  eexists. split; [exact Hc|]. intros x i Hx Hi. unfold fn at 1. rewrite nth_map_seq by auto. cbn [Nat.add]. ring.
Qed.

Theorem C33_convert_coo (w : world F) this m c A :
  w_coo w m = Some c -> w_op w this = Some A -> coo_ok c ->
  in_range (c_row c) (c_col c) (coo_entries c) -> row_sorted (coo_entries c) ->
  exists w', op_convert_coo w this m = Ok w' /\ is_matrix w' false this (c_col c) (c_row c) (summed (coo_entries c)).
Proof.
  intros H1 H2 H3 H4 H5. destruct (convert_coo_computes w this m H1 H2 H3 H4 H5) as (w' & E & _ & Hc). exists w'. split; auto.
  eexists. split; [exact Hc|]. intros x i Hx Hi.
  destruct (@C08_coo_crs_coo F SF SC crs_empty c c) as (a' & c' & E2 & Ra & _ & R1 & R2 & _ & HE & HRow & _); auto.
  { unfold crs_buf, crs_empty. cbn. auto. }
  destruct (@C11_crs_matvec_exact F SF a' x (repeat f0 (m_row a')) Hex Ra) as (y' & E' & _ & HY); [lia|apply repeat_length|].
  rewrite C11_crs_matvec in E' by (auto; try apply repeat_length; lia). inversion E'; subst y'. clear E'.
  rewrite <- HE, <- R2, <- HY by lia. unfold fn. rewrite !nth_map_seq by lia. cbn [Nat.add]. now rewrite HRow, HE by lia.
Qed.

(** operator -> Dense: the matrix of the operator; together with the three above: matrix -> operator ->
    Dense gives the matrix back *)
Theorem C33_to_dense_matrix (w : world F) a A MA (d : dense F) :
  w_op w a = Some A -> is_matrix w false a (l_col A) (l_row A) MA -> dense_ok d -> d_row d = l_row A -> d_col d = l_col A ->
  exists d' n, (forall m, n <= m -> op_to_dense m w A d = Ok d') /\ dense_ok d' /\ d_row d' = l_row A /\ d_col d' = l_col A /\
    forall i j, i < l_row A -> j < l_col A -> dense_fn d' i j = MA i j.
Proof.
  intros EA (g & Cg & Hg) WD Hr Hc. destruct (C33_to_dense EA Cg WD Hr Hc) as (d' & n & E & W & R1 & R2 & HF).
  exists d', n. do 4 (split; auto). intros i j Hi Hj. rewrite HF by auto. rewrite Hg by (auto; apply unit_len). now apply (mv_unit Hex).
Qed.

Theorem C33_roundtrip_dense (w : world F) this m (d dst : dense F) A :
  w_dense w m = Some d -> w_op w this = Some A -> dense_ok d -> dense_ok dst -> d_row dst = d_row d -> d_col dst = d_col d ->
  exists w' A' d' n, op_convert_dense w this m = Ok w' /\ w_op w' this = Some A' /\
    (forall k, n <= k -> op_to_dense k w' A' dst = Ok d') /\ d_row d' = d_row d /\ d_col d' = d_col d /\
    forall i j, i < d_row d -> j < d_col d -> dense_fn d' i j = dense_fn d i j.
Proof.
  intros H1 H2 H3 H4 H5 H6. destruct (C33_convert_dense w this m H1 H2 H3) as (w' & E & HM).
  pose proof HM as (g & Cg & _). destruct (computes_op Cg) as (A' & EA' & Hi & Ho). cbn [l_in l_out] in Hi, Ho.
  destruct (@C33_to_dense_matrix w' this A' (dense_fn d) dst) as (d' & n & G & _ & R1 & R2 & HF); auto; try (rewrite ?Hi, ?Ho; auto).
  exists w', A', d', n. do 3 (split; auto). split; [lia|]. split; [lia|]. intros i j Hi' Hj'. apply HF; lia.
Qed.

Theorem C33_roundtrip_crs (w : world F) this m (a : crs F) (dst : dense F) A :
  w_crs w m = Some a -> w_op w this = Some A -> crs_readable a -> dense_ok dst -> d_row dst = m_row a -> d_col dst = m_col a ->
  exists w' A' d' n, op_convert_crs w this m = Ok w' /\ w_op w' this = Some A' /\
    (forall k, n <= k -> op_to_dense k w' A' dst = Ok d') /\ d_row d' = m_row a /\ d_col d' = m_col a /\
    forall i j, i < m_row a -> j < m_col a -> dense_fn d' i j = summed (crs_entries a) i j.
Proof.
  intros H1 H2 H3 H4 H5 H6. destruct (C33_convert_crs w this m H1 H2 H3) as (w' & E & HM).
  pose proof HM as (g & Cg & _). destruct (computes_op Cg) as (A' & EA' & Hi & Ho). cbn [l_in l_out] in Hi, Ho.
  destruct (@C33_to_dense_matrix w' this A' (summed (crs_entries a)) dst) as (d' & n & G & _ & R1 & R2 & HF); auto; try (rewrite ?Hi, ?Ho; auto).
  exists w', A', d', n. do 3 (split; auto). split; [lia|]. split; [lia|]. intros i j Hi' Hj'. apply HF; lia.
Qed.

Theorem C33_roundtrip_coo (w : world F) this m (c : coo F) (dst : dense F) A :
  w_coo w m = Some c -> w_op w this = Some A -> coo_ok c ->
  in_range (c_row c) (c_col c) (coo_entries c) -> row_sorted (coo_entries c) -> dense_ok dst -> d_row dst = c_row c -> d_col dst = c_col c ->
  exists w' A' d' n, op_convert_coo w this m = Ok w' /\ w_op w' this = Some A' /\
    (forall k, n <= k -> op_to_dense k w' A' dst = Ok d') /\ d_row d' = c_row c /\ d_col d' = c_col c /\
    forall i j, i < c_row c -> j < c_col c -> dense_fn d' i j = summed (coo_entries c) i j.
Proof.
  intros H1 H2 H3 HR HS H4 H5 H6. destruct (C33_convert_coo w this m H1 H2 H3 HR HS) as (w' & E & HM).
  pose proof HM as (g & Cg & _). destruct (computes_op Cg) as (A' & EA' & Hi & Ho). cbn [l_in l_out] in Hi, Ho.
  destruct (@C33_to_dense_matrix w' this A' (summed (coo_entries c)) dst) as (d' & n & G & _ & R1 & R2 & HF); auto; try (rewrite ?Hi, ?Ho; auto).
  exists w', A', d', n. do 3 (split; auto). split; [lia|]. split; [lia|]. intros i j Hi' Hj'. apply HF; lia.
Qed.

(** diag gives the diagonal of the matrix *)
Theorem C33_diag_matrix (w : world F) a A MA v :
  sched_valid SC -> w_op w a = Some A -> is_matrix w false a (l_col A) (l_row A) MA -> length v = Nat.min (l_row A) (l_col A) ->
  exists n v', (forall m, n <= m -> op_diag m w A v = Ok v') /\ length v' = Nat.min (l_row A) (l_col A) /\
    forall i, i < Nat.min (l_row A) (l_col A) -> fn v' i = MA i i.
Proof.
  intros HS EA (g & Cg & Hg) HL. destruct (C33_diag v HS EA Cg HL) as (n & E). exists n. eexists. split; [exact E|].
  split; [now rewrite map_length, seq_length|]. intros i Hi. unfold fn at 1. rewrite nth_map_seq by auto. cbn [Nat.add].
  rewrite Hg by (try apply unit_len; lia). apply (mv_unit Hex). lia.
Qed.

(** operator (converted from a matrix) times Dense *)
Theorem C33_op_dense_matmul (w : world F) this A (B C : dense F) :
  w_op w this = Some A -> dense_ok B -> dense_ok C -> d_col B = d_col C ->
  (forall m a, w_crs w m = Some a -> crs_readable a -> m_col a = d_row B -> m_row a = d_row C ->
     exists w' C', op_convert_crs w this m = Ok w' /\ op_dense_matmul false w' this B C = Ok C' /\
       d_row C' = d_row C /\ d_col C' = d_col C /\
       forall i j, i < d_row C -> j < d_col C -> dense_fn C' i j = mm (m_col a) (summed (crs_entries a)) (dense_fn B) i j) /\
  (forall m d, w_dense w m = Some d -> dense_ok d -> d_col d = d_row B -> d_row d = d_row C ->
     exists w' C', op_convert_dense w this m = Ok w' /\ op_dense_matmul false w' this B C = Ok C' /\
       d_row C' = d_row C /\ d_col C' = d_col C /\
       forall i j, i < d_row C -> j < d_col C -> dense_fn C' i j = mm (d_col d) (dense_fn d) (dense_fn B) i j).
Proof.
  intros EA WB WC HBC. split.
  - intros m a Em Ra H1 H2. unfold op_convert_crs. rewrite (get_ok _ _ Em). cbn [bind]. rewrite (get_ok _ _ EA). cbn [bind].
    eexists. unfold op_dense_matmul.
    set (mat := mkDense (m_row a) (d_col B) (repeat f0 (m_row a * d_col B)) 0 (m_row a * d_col B) (m_row a * d_col B) true).
    assert (Wm : dense_ok mat) by (unfold dense_ok, mat; cbn; rewrite repeat_length; auto).
    destruct (@C18_crs_dense_exact F SF 1 a B 0 mat Hex Ra WB Wm) as (C1 & C2 & C3 & E1 & _ & _ & HF); auto. cbv zeta in HF.
    destruct (@C18_crs_dense_scalar F SF 1 a B 0 mat Ra WB Wm) as (C1' & E1' & W1 & R1 & R2 & _); auto.
    rewrite E1 in E1'. inversion E1'; subst C1'. change (d_row C1 = m_row a) in R1. change (d_col C1 = d_col B) in R2.
    destruct (@dense_assign_ok F SF C C1 WC W1) as (C' & EC' & WC' & S1 & S2 & HC'); [lia|lia|].
    exists C'. split; [reflexivity|]. unfold get at 1. rewrite w_op_set. cbn [bind l_in l_out l_col l_row l_mm].
    rewrite H1, H2, HBC, !Nat.eqb_refl. cbn [assert_ bind mcall]. rewrite (get_ok (w_crs _) m (a:=a)) by exact Em. cbn [bind].
    rewrite dense_new_ok. cbn [bind]. unfold get. rewrite w_op_set. cbn [bind]. fold mat. rewrite E1. cbn [bind].
    split; [exact EC'|]. split; auto. split; auto. intros i j Hi Hj. rewrite HC' by auto. rewrite (proj1 (HF i j ltac:(lia) ltac:(lia))).
    rewrite H1. ring.
  - intros m d Em Wd H1 H2. unfold op_convert_dense. rewrite (get_ok _ _ Em). cbn [bind]. rewrite (get_ok _ _ EA). cbn [bind].
    eexists. unfold op_dense_matmul.
    set (mat := mkDense (d_row d) (d_col B) (repeat f0 (d_row d * d_col B)) 0 (d_row d * d_col B) (d_row d * d_col B) true).
    assert (Wm : dense_ok mat) by (unfold dense_ok, mat; cbn; rewrite repeat_length; auto).
    destruct (@dense_matmul_ok F SF d B mat Wd WB Wm) as (C1 & E1 & W1 & R1 & R2 & HF); auto. change (d_row C1 = d_row d) in R1. change (d_col C1 = d_col B) in R2.
    destruct (@dense_assign_ok F SF C C1 WC W1) as (C' & EC' & WC' & S1 & S2 & HC'); [lia|lia|].
    exists C'. split; [reflexivity|]. unfold get at 1. rewrite w_op_set. cbn [bind l_in l_out l_col l_row l_mm].
    rewrite H1, H2, HBC, !Nat.eqb_refl. cbn [assert_ bind mcall]. rewrite (get_ok (w_dense _) m (a:=d)) by exact Em. cbn [bind].
    rewrite dense_new_ok. cbn [bind]. unfold get. rewrite w_op_set. cbn [bind]. fold mat. rewrite E1. cbn [bind].
    split; [exact EC'|]. split; auto. split; auto. intros i j Hi Hj. rewrite HC' by auto. rewrite HF by lia. rewrite H1. ring.
Qed.

End Exact.

Print Assumptions C33_matadd.
Print Assumptions C33_matsub.
Print Assumptions C33_vml_add.
Print Assumptions C33_vml_sub.
Print Assumptions C33_matmul.
Print Assumptions C33_scalar_add.
Print Assumptions C33_scalar_sub.
Print Assumptions C33_scalar_mul.
Print Assumptions C33_scalar_div.
Print Assumptions C33_others_unchanged.
Print Assumptions C33_matadd_follows_operands.
Print Assumptions C33_destroyed_operand_refuted.
Print Assumptions C33_in_place_matadd_refuted.
Print Assumptions C33_scalar_temporary_refuted.
Print Assumptions C33_to_dense.
Print Assumptions C33_to_dense_shape.
Print Assumptions C33_to_dense_no_matvec.
Print Assumptions C33_diag.
Print Assumptions C33_copy_ctor_partial.
Print Assumptions C33_assign_partial.
Print Assumptions C33_matmul_dense_unset.
Print Assumptions C33_matadd_matrix.
Print Assumptions C33_matsub_matrix.
Print Assumptions C33_matmul_matrix.
Print Assumptions C33_scalar_matrix.
Print Assumptions C33_convert_crs.
Print Assumptions C33_convert_dense.
Print Assumptions C33_convert_coo.
Print Assumptions C33_to_dense_matrix.
Print Assumptions C33_roundtrip_dense.
Print Assumptions C33_roundtrip_crs.
Print Assumptions C33_roundtrip_coo.
Print Assumptions C33_diag_matrix.
Print Assumptions C33_op_dense_matmul.

(** ** concrete cases *)
Local Existing Instance one_thread.
Local Open Scope Z_scope.

Definition D (r c : nat) (v : list Z) : dense Z := mkDense r c v 0 (r * c) (r * c) true.
(** operator that has been constructed with a size only *)
Definition blank (r c : nat) : linop Z := op_new r c None None None None.
(** operators 0..3 (2x2, blank), Dense matrices 0 and 1, scalar 0 (= 10) *)
Definition world0 : world Z :=
  mkW (fun i => if (i <? 4)%nat then Some (blank 2 2) else None) (fun _ => None) (fun _ => None)
      (fun i => match i with O => Some (D 2 2 [1;2;3;4]) | S O => Some (D 2 2 [5;6;7;8]) | _ => None end)
      (fun i => match i with O => Some 10 | _ => None end).

(** operators 0 and 1 are made from Dense matrices; 2 is their sum, 3 their product *)
Definition world_sum_prod : res (world Z) :=
  w <- op_convert_dense world0 0 0 ;; w <- op_convert_dense w 1 1 ;; w <- op_matadd w 0 1 2 ;; op_matmul w 0 1 3.

Example C33_example :
  exists w, world_sum_prod = Ok w /\
    op_matvec 5 w 2 [1;10] [0;0] = Ok [86;130] /\ op_matvec 5 w 3 [1;10] [0;0] = Ok [239;543] /\
    (exists A2 d, w_op w 2%nat = Some A2 /\ op_to_dense 5 w A2 (D 2 2 [0;0;0;0]) = Ok d /\ d_val d = [6;8;10;12]) /\
    (exists A3 d, w_op w 3%nat = Some A3 /\ op_to_dense 5 w A3 (D 2 2 [0;0;0;0]) = Ok d /\ d_val d = [19;22;43;50] /\
       op_diag 5 w A3 [0;0] = Ok [19;50]).
Proof.
  eexists. split; [vm_compute; reflexivity|]. split; [vm_compute; reflexivity|]. split; [vm_compute; reflexivity|]. split.
  - do 2 eexists. split; [vm_compute; reflexivity|]. split; [vm_compute; reflexivity|]. vm_compute; reflexivity.
  - do 2 eexists. split; [vm_compute; reflexivity|]. split; [vm_compute; reflexivity|]. split; vm_compute; reflexivity.
Qed.

(** the hypotheses of C33_matadd and C33_matmul are met there *)
Example C33_hypotheses_met :
  exists w A B C, (w <- op_convert_dense world0 0 0 ;; op_convert_dense w 1 1) = Ok w /\
    w_op w 0%nat = Some A /\ w_op w 1%nat = Some B /\ w_op w 2%nat = Some C /\ same_funs A B = true /\
    ~ built_on w 0 2 /\ ~ built_on w 1 2 /\
    is_matrix w false 0 2 2 (dense_fn (D 2 2 [1;2;3;4])) /\ is_matrix w false 1 2 2 (dense_fn (D 2 2 [5;6;7;8])).
Proof.
  destruct (@C33_convert_dense Z _ _ Z_exact world0 0 0 (D 2 2 [1;2;3;4]) (blank 2 2)) as (w1 & E1 & H1); auto.
  { unfold dense_ok. cbn. auto. }
  pose proof E1 as E1'. vm_compute in E1'. inversion E1' as [Ew1]. clear E1'.
  destruct (@C33_convert_dense Z _ _ Z_exact w1 1 1 (D 2 2 [5;6;7;8]) (blank 2 2)) as (w2 & E2 & H2); auto.
  { now rewrite <- Ew1. } { now rewrite <- Ew1. } { unfold dense_ok. cbn. auto. }
  rewrite E1. cbn [bind]. exists w2. do 3 eexists. split; [exact E2|].
  pose proof E2 as E2'. unfold op_convert_dense in E2'. rewrite <- Ew1 in E2'. cbn in E2'. inversion E2' as [Ew2].
  do 3 (split; [reflexivity|]). split; [reflexivity|].
  assert (NB : forall a c, (a < 2)%nat -> c = 2%nat -> built_on w2 a c -> False).
  { rewrite <- Ew2. intros a c Ha Hc Hb. destruct Hb as [a|a A t k a' c EA Ek Hin Hb]; [lia|].
    destruct a as [|[|a]]; [| |lia]; cbn in EA; inversion EA; subst A; destruct t; cbn in Ek; inversion Ek; subst k; cbn in Hin; auto. }
  rewrite Ew2. split; [intros H; apply (NB 0%nat 2%nat); auto; lia|]. split; [intros H; apply (NB 1%nat 2%nat); auto; lia|].
  split; [|exact H2].
  destruct H1 as (g & Cg & Hg). exists g. split; [|exact Hg].
  apply (@C33_others_unchanged Z _ _ w1 w2 1%nat (blank 2 2) (mkOp 2 2 (Some (KDense 1 1)) None (Some (MDense 1 1)) None)); auto.
  - now rewrite <- Ew1.
  - now rewrite <- Ew2.
  - rewrite <- Ew2, <- Ew1. repeat split. intros a Ha. unfold set_op, put. cbn. destruct (Nat.eqb_spec a 1); [lia|reflexivity].
  - rewrite <- Ew1. intros Hb. inversion Hb as [|a A t k a' c EA Ek Hin Hb']. subst. cbn in EA. inversion EA; subst A.
    destruct t; cbn in Ek; inversion Ek; subst k. cbn in Hin. auto.
Qed.

(** the operator follows later changes of the matrix it was converted from (and so does every operator
    built on it): it is not a snapshot *)
Theorem C33_snapshot_refuted :
  exists w w', world_sum_prod = Ok w /\ w' = set_dense w 0 (Some (D 2 2 [0;0;0;0])) /\
    op_matvec 5 w 2 [1;10] [0;0] = Ok [86;130] /\ op_matvec 5 w' 2 [1;10] [0;0] = Ok [65;87].
Proof.
  do 2 eexists. split; [vm_compute; reflexivity|]. split; [reflexivity|]. split; vm_compute; reflexivity.
Qed.

(** destroying the operator [convert] was called on breaks every copy of it: the lambda reads [this] *)
Theorem C33_copy_outlives_original_refuted :
  exists w A, op_convert_dense world0 0 0 = Ok w /\ w_op w 0%nat = Some A /\
    let w1 := set_op w 1 (Some (op_copy_ctor A)) in
    op_matvec 5 w1 1 [1;10] [0;0] = Ok [21;43] /\
    op_matvec 5 (set_op w1 0 None) 1 [1;10] [0;0] = UB.
Proof.
  do 2 eexists. split; [vm_compute; reflexivity|]. split; [vm_compute; reflexivity|]. split; vm_compute; reflexivity.
Qed.

(** the copy constructor loses the matmul functions: A * B works, copy(A) * B throws *)
Theorem C33_copy_ctor_matmul_refuted :
  exists w A, op_convert_dense world0 0 0 = Ok w /\ w_op w 0%nat = Some A /\
    (exists R, op_dense_matmul false w 0 (D 2 2 [1;0;0;1]) (D 2 2 [0;0;0;0]) = Ok R /\ d_val R = [1;2;3;4]) /\
    op_dense_matmul false (set_op w 1 (Some (op_copy_ctor A))) 1 (D 2 2 [1;0;0;1]) (D 2 2 [0;0;0;0]) = Throw.
Proof.
  do 2 eexists. split; [vm_compute; reflexivity|]. split; [vm_compute; reflexivity|]. split.
  - eexists. split; [vm_compute; reflexivity|]. reflexivity.
  - vm_compute; reflexivity.
Qed.

(** operator=: C = A where A has no matvec leaves C with its old matvec: A throws, C does not *)
Theorem C33_assign_stale_refuted :
  exists w C, op_convert_dense world0 0 0 = Ok w /\ w_op w 0%nat = Some C /\
    op_matvec 5 w 1 [1;10] [0;0] = Throw /\
    op_matvec 5 (set_op w 0 (Some (op_assign (blank 2 2) C))) 0 [1;10] [0;0] = Ok [21;43].
Proof.
  do 2 eexists. split; [vm_compute; reflexivity|]. split; [vm_compute; reflexivity|]. split; vm_compute; reflexivity.
Qed.

(** matadd into an operator that was converted from a matrix: matvec is the sum, but the product with a
    Dense matrix still is the one of the OLD matrix *)
Theorem C33_matadd_stale_matmul_refuted :
  exists w, (w <- op_convert_dense world0 0 0 ;; w <- op_convert_dense w 1 1 ;; w <- op_convert_dense w 2 0 ;; op_matadd w 0 1 2) = Ok w /\
    op_matvec 5 w 2 [1;0] [0;0] = Ok [6;10] /\
    exists R, op_dense_matmul false w 2 (D 2 1 [1;0]) (D 2 1 [0;0]) = Ok R /\ d_val R = [1;3].
Proof.
  eexists. split; [vm_compute; reflexivity|]. split; [vm_compute; reflexivity|].
  eexists. split; [vm_compute; reflexivity|]. reflexivity.
Qed.

(** the size check of matadd accepts operators with different numbers of columns (is_same_size is true
    unless rows AND columns differ); the result cannot be applied to any vector *)
Theorem C33_same_size_refuted :
  exists w, op_matadd (mkW (fun i => match i with
        | O => Some (op_new 2 2 (Some (KUser (fun x => Ok x))) None None None)
        | S O => Some (op_new 2 3 (Some (KUser (fun x => Ok (firstn 2 x)))) None None None)
        | S (S O) => Some (blank 2 2) | _ => None end) (fun _ => None) (fun _ => None) (fun _ => None) (fun _ => None)) 0 1 2 = Ok w /\
    op_same_size (blank 2 2) (blank 2 3) = true /\
    forall n x y, length x = 2%nat -> length y = 2%nat -> op_matvec (S (S n)) w 2 x y = Abort.
Proof.
  eexists. split; [cbn; reflexivity|]. split; [reflexivity|]. intros n [|a [|b [|c x]]] [|d [|e [|f y]]] Hx Hy; try discriminate. reflexivity.
Qed.

(** vml::mul(A, alpha, C) with a temporary: fine while alpha lives, undefined afterwards *)
Example C33_scalar_temporary_example :
  exists w, (w <- op_convert_dense world0 0 0 ;; op_muls w 0 0 1) = Ok w /\
    op_matvec 5 w 1 [1;10] [0;0] = Ok [210;430] /\ op_matvec 5 (set_sc w 0 None) 1 [1;10] [0;0] = UB.
Proof.
  eexists. split; [vm_compute; reflexivity|]. split; vm_compute; reflexivity.
Qed.

(** floating point: a matrix with an infinite element is not restored by operator and back
    (0 * inf = NaN in the columns of the other unit vectors) *)
Theorem C33_roundtrip_inf_refuted :
  let inf := SpecFloat.S754_infinity false in let o := b64_of_Z 1 in
  let w0 := mkW (fun i => Some (op_new (F:=b64) 1 2 None None None None)) (fun _ => None) (fun _ => None)
                (fun _ => Some (mkDense 1 2 [inf; o] 0 2 2 true)) (fun _ => None) in
  exists w A d, op_convert_dense w0 0 0 = Ok w /\ w_op w 0%nat = Some A /\
    op_to_dense (SF:=b64scalar) 5 w A (mkDense 1 2 [o; o] 0 2 2 true) = Ok d /\ d_val d = [inf; SpecFloat.S754_nan].
Proof.
  cbv zeta. do 3 eexists. split; [vm_compute; reflexivity|]. split; [vm_compute; reflexivity|]. split; [vm_compute; reflexivity|]. reflexivity.
Qed.
