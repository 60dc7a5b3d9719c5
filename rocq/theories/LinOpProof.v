(** * LinOpProof *)
From Verif Require Import Base Scalar Spec SumFacts DenseModel CooModel CrsModel CooMiscProof CrsMiscProof Observe CrsObserve SolverModel
  LinOpModel LinOpSpec Loops.
Set Implicit Arguments.

Section LinOpProof.
Context {F : Type} {SF : Scalar F} {SC : Schedule}.

Lemma get_ok {A} (f : nat -> option A) i a : f i = Some a -> get f i = Ok a.
Proof. unfold get. now intros ->. Qed.

Lemma op_apply_opvec t n (w : world F) a x y : op_apply t n w a x y = opvec (call n w) w t a x y.
Proof. destruct t; reflexivity. Qed.

(** the function is set and its result has the right length *)
Lemma computes_fun w t a p q (g : list F -> list F) : computes w t a p q g ->
  exists A k, w_op w a = Some A /\ l_in t A = p /\ l_out t A = q /\ l_fun t A = Some k /\
    forall x, length x = p -> length (g x) = q /\ exists n, forall m, n <= m -> call m w k x = Ok (g x).
Proof.
  intros (A & EA & Hi & Ho & H). exists A.
  destruct (H (repeat f0 p) (repeat f0 q) (repeat_length _ _) (repeat_length _ _)) as (n & Hn).
  specialize (Hn n (le_n _)). rewrite op_apply_opvec in Hn. unfold opvec in Hn. rewrite (get_ok _ _ EA) in Hn. cbn [bind] in Hn.
  rewrite !repeat_length, Hi, Ho, !Nat.eqb_refl in Hn. cbn [assert_ bind] in Hn.
  destruct (l_fun t A) as [k|] eqn:Ek; [|discriminate]. exists k. do 4 (split; auto).
  intros x Hx. destruct (H x (repeat f0 q) Hx (repeat_length _ _)) as (n' & Hn'). 
  assert (G : forall m, n' <= m -> call m w k x = Ok (g x) /\ length (g x) = q).
  { intros m Hm. specialize (Hn' m Hm). rewrite op_apply_opvec in Hn'. unfold opvec in Hn'. rewrite (get_ok _ _ EA) in Hn'. cbn [bind] in Hn'.
    rewrite !repeat_length, Hi, Ho, Hx, !Nat.eqb_refl in Hn'. cbn [assert_ bind] in Hn'. rewrite Ek in Hn'.
    apply bind_ok in Hn'. destruct Hn' as (r & E1 & E2). apply bind_ok in E2. destruct E2 as (u & E2 & E3).
    inversion E3; subst r. split; auto. unfold assert_ in E2. destruct (q =? length (g x)) eqn:El; [|discriminate].
    apply Nat.eqb_eq in El. lia. }
  split; [apply (G n' (le_n _))|]. exists n'. intros m Hm. apply (G m Hm).
Qed.

Lemma fun_computes w t a A k p q (g : list F -> list F) :
  w_op w a = Some A -> l_in t A = p -> l_out t A = q -> l_fun t A = Some k ->
  (forall x, length x = p -> length (g x) = q /\ exists n, forall m, n <= m -> call m w k x = Ok (g x)) ->
  computes w t a p q g.
Proof.
  intros EA Hi Ho Ek H. exists A. do 3 (split; auto). intros x y Hx Hy. destruct (H x Hx) as (HL & n & Hn).
  exists n. intros m Hm. rewrite op_apply_opvec. unfold opvec. rewrite (get_ok _ _ EA). cbn [bind]. rewrite Hi, Ho, Hx, Hy, !Nat.eqb_refl.
  cbn [assert_ bind]. rewrite Ek, (Hn m Hm). cbn [bind]. rewrite HL, Nat.eqb_refl. reflexivity.
Qed.

(** the call from inside a library lambda *)
Lemma computes_opvec w t a p q (g : list F -> list F) x : computes w t a p q g -> length x = p ->
  exists n, forall m, n <= m -> opvec (call m w) w t a x (repeat f0 q) = Ok (g x).
Proof.
  intros (A & EA & Hi & Ho & H) Hx. destruct (H x (repeat f0 q) Hx (repeat_length _ _)) as (n & Hn).
  exists n. intros m Hm. rewrite <- op_apply_opvec. auto.
Qed.

Lemma computes_op w t a p q (g : list F -> list F) : computes w t a p q g ->
  exists A, w_op w a = Some A /\ l_in t A = p /\ l_out t A = q.
Proof. intros (A & EA & Hi & Ho & H). eauto. Qed.

Lemma computes_len w t a p q (g : list F -> list F) x : computes w t a p q g -> length x = p -> length (g x) = q.
Proof. intros H Hx. destruct (computes_fun H) as (A & k & _ & _ & _ & _ & G). now apply G. Qed.

(** ** library lambdas compute *)
Lemma axpy_len s (u v : list F) q : length u = q -> length v = q ->
  v_axpy s u v = Ok (map (fun i => fadd (fn v i) (fmul s (fn u i))) (seq 0 q)).
Proof.
  intros Hu Hv. unfold v_axpy, leneq. rewrite Hu, Hv, Nat.eqb_refl. cbn [assert_ bind]. unfold zipw. rewrite Hu. reflexivity.
Qed.

Lemma step_max (P : nat -> Prop) (Q : nat -> Prop) n1 n2 :
  (forall m, n1 <= m -> P m) -> (forall m, n2 <= m -> Q m) -> forall m, S (n1 + n2) <= m -> exists m', m = S m' /\ P m' /\ Q m'.
Proof. intros H1 H2 m Hm. destruct m as [|m']; [lia|]. exists m'. split; auto. split; [apply H1|apply H2]; lia. Qed.

Lemma kaxpy_computes w t s a b p q (g h : list F -> list F) x :
  computes w t a p q g -> computes w t b p q h -> length x = p ->
  exists n, forall m, n <= m -> call m w (KAxpy t s a b) x = Ok (map (fun i => fadd (fn (g x) i) (fmul s (fn (h x) i))) (seq 0 q)).
Proof.
  intros Ha Hb Hx. destruct (computes_opvec _ Ha Hx) as (n1 & H1). destruct (computes_opvec _ Hb Hx) as (n2 & H2).
  destruct (computes_op Ha) as (A & EA & Hi & Ho).
  exists (S (n1 + n2)). intros m Hm. destruct (@step_max _ _ _ _ H1 H2 m Hm) as (m' & -> & G1 & G2).
  cbn [call]. rewrite (get_ok _ _ EA). cbn [bind]. rewrite Ho, G1. cbn [bind]. rewrite G2. cbn [bind].
  apply axpy_len; eapply computes_len; eauto.
Qed.

Lemma kprod_computes w a b p r q (g h : list F -> list F) x :
  computes w false a r q g -> computes w false b p r h -> length x = p ->
  exists n, forall m, n <= m -> call m w (KProd false a b) x = Ok (g (h x)).
Proof.
  intros Ha Hb Hx. destruct (computes_opvec _ Hb Hx) as (n2 & H2). pose proof (computes_len _ Hb Hx) as Hl.
  destruct (computes_opvec _ Ha Hl) as (n1 & H1).
  destruct (computes_op Ha) as (A & EA & Hi & Ho). destruct (computes_op Hb) as (B & EB & Hi' & Ho').
  exists (S (n1 + n2)). intros m Hm. destruct (@step_max _ _ _ _ H1 H2 m Hm) as (m' & -> & G1 & G2).
  cbn [call]. rewrite (get_ok _ _ EA), (get_ok _ _ EB). cbn [bind]. cbn [l_out] in Ho, Ho'. rewrite Ho, Ho', G2. cbn [bind]. exact G1.
Qed.

Lemma kprod_computes_t w a b p r q (g h : list F -> list F) x :
  computes w true a p r g -> computes w true b r q h -> length x = p ->
  exists n, forall m, n <= m -> call m w (KProd true a b) x = Ok (h (g x)).
Proof.
  intros Ha Hb Hx. destruct (computes_opvec _ Ha Hx) as (n2 & H2). pose proof (computes_len _ Ha Hx) as Hl.
  destruct (computes_opvec _ Hb Hl) as (n1 & H1).
  destruct (computes_op Ha) as (A & EA & Hi & Ho). destruct (computes_op Hb) as (B & EB & Hi' & Ho').
  exists (S (n1 + n2)). intros m Hm. destruct (@step_max _ _ _ _ H1 H2 m Hm) as (m' & -> & G1 & G2).
  cbn [call]. rewrite (get_ok _ _ EA), (get_ok _ _ EB). cbn [bind]. cbn [l_out] in Ho, Ho'. rewrite Ho, Ho', G2. cbn [bind]. exact G1.
Qed.

Lemma kshift_computes w t op a al alpha p q (g : list F -> list F) x :
  computes w t a p q g -> w_sc w al = Some alpha -> length x = p ->
  exists n, forall m, n <= m -> call m w (KShift t op a al) x = Ok (map (fun v => op v (fmul alpha (l_sum x))) (g x)).
Proof.
  intros Ha Hal Hx. destruct (computes_opvec _ Ha Hx) as (n1 & H1). destruct (computes_op Ha) as (A & EA & Hi & Ho).
  exists (S n1). intros m Hm. destruct m as [|m']; [lia|]. cbn [call]. rewrite (get_ok _ _ EA). cbn [bind]. rewrite Ho, H1 by lia.
  cbn [bind]. rewrite (get_ok _ _ Hal). reflexivity.
Qed.

Lemma kscale_computes w t k a al alpha p q (g : list F -> list F) x :
  computes w t a p q g -> w_sc w al = Some alpha -> length x = p ->
  exists n, forall m, n <= m -> call m w (KScale t k a al) x = Ok (map (fun v => fmul v (k alpha)) (g x)).
Proof.
  intros Ha Hal Hx. destruct (computes_opvec _ Ha Hx) as (n1 & H1). destruct (computes_op Ha) as (A & EA & Hi & Ho).
  exists (S n1). intros m Hm. destruct m as [|m']; [lia|]. cbn [call]. rewrite (get_ok _ _ EA). cbn [bind]. rewrite Ho, H1 by lia.
  cbn [bind]. rewrite (get_ok _ _ Hal). reflexivity.
Qed.

(** ** frame: changing operator c does not matter to operators not built on it *)
Lemma frame_gen (w w' : world F) c C C' :
  w_op w c = Some C -> w_op w' c = Some C' -> same_except c w w' ->
  forall n k x, (forall a, In a (calls k) -> ~ built_on w a c) -> call n w' k x = call n w k x.
Proof.
  intros EC EC' (S1 & S2 & S3 & S4 & S5).
  assert (Hop : forall a, ~ built_on w a c -> w_op w' a = w_op w a).
  { intros a Ha. apply S1. intros ->. apply Ha. constructor. }
  induction n as [|n IH]; intros k x Hk; [reflexivity|].
  assert (HV : forall t a y z, ~ built_on w a c -> opvec (call n w') w' t a y z = opvec (call n w) w t a y z).
  { intros t a y z Ha. unfold opvec, get. rewrite (Hop a Ha). destruct (w_op w a) as [A|] eqn:EA; auto. cbn [bind].
    destruct (l_fun t A) as [k'|] eqn:Ek; auto. rewrite IH; auto.
    intros a' Hin Hb. apply Ha. econstructor; eauto. }
  assert (HT : forall this {X} (r : res X), (get (w_op w') this ;;; r) = (get (w_op w) this ;;; r)).
  { intros this X r. unfold get. destruct (Nat.eq_dec this c) as [->|Hne]; [now rewrite EC, EC'|now rewrite S1]. }
  destruct k as [f|m|this m|this m|t s a b|t a b|t op a al|t g a al]; cbn [call].
  - reflexivity.
  - now rewrite S3.
  - rewrite S2. unfold get at 1 3. destruct (w_crs w m); auto. cbn [bind]. apply HT.
  - rewrite S4. unfold get at 1 3. destruct (w_dense w m); auto. cbn [bind]. apply HT.
  - assert (Ha : ~ built_on w a c) by (apply Hk; cbn; auto). assert (Hb : ~ built_on w b c) by (apply Hk; cbn; auto).
    unfold get. rewrite (Hop a Ha). destruct (w_op w a); auto. cbn [bind]. rewrite HV by auto.
    destruct (opvec _ _ _ a _ _); auto. cbn [bind]. now rewrite HV.
  - assert (Ha : ~ built_on w a c) by (apply Hk; cbn; auto). assert (Hb : ~ built_on w b c) by (apply Hk; cbn; auto).
    unfold get. rewrite (Hop a Ha), (Hop b Hb). destruct t.
    + destruct (w_op w b); auto. cbn [bind]. destruct (w_op w a); auto. cbn [bind]. rewrite HV by auto.
      destruct (opvec _ _ _ a _ _); auto. cbn [bind]. now rewrite HV.
    + destruct (w_op w a); auto. cbn [bind]. destruct (w_op w b); auto. cbn [bind]. rewrite HV by auto.
      destruct (opvec _ _ _ b _ _); auto. cbn [bind]. now rewrite HV.
  - assert (Ha : ~ built_on w a c) by (apply Hk; cbn; auto).
    unfold get. rewrite (Hop a Ha), S5. destruct (w_op w a); auto. cbn [bind]. now rewrite HV.
  - assert (Ha : ~ built_on w a c) by (apply Hk; cbn; auto).
    unfold get. rewrite (Hop a Ha), S5. destruct (w_op w a); auto. cbn [bind]. now rewrite HV.
Qed.

Lemma frame_computes (w w' : world F) c C C' :
  w_op w c = Some C -> w_op w' c = Some C' -> same_except c w w' ->
  forall t a p q g, ~ built_on w a c -> computes w t a p q g -> computes w' t a p q g.
Proof.
  intros EC EC' HS t a p q g Hn Hc. destruct (computes_fun Hc) as (A & k & EA & Hi & Ho & Ek & H).
  assert (EA' : w_op w' a = Some A).
  { destruct HS as (S1 & _). rewrite S1; auto. intros ->. apply Hn. constructor. }
  apply (@fun_computes w' t a A k); auto. intros x Hx. destruct (H x Hx) as (HL & n & Hn'). split; auto.
  exists n. intros m Hm. rewrite (frame_gen EC EC' HS); auto.
  intros a' Hin Hb. apply Hn. econstructor; eauto.
Qed.

Lemma same_except_set w c (o : option (linop F)) : same_except c w (set_op w c o).
Proof.
  unfold same_except, set_op, put. cbn. repeat split; auto. intros a Ha. now rewrite (proj2 (Nat.eqb_neq _ _) Ha).
Qed.

Lemma w_op_set (w : world F) c o : w_op (set_op w c o) c = o.
Proof. unfold set_op, put. cbn. now rewrite Nat.eqb_refl. Qed.
Lemma w_op_set_ne (w : world F) c o a : a <> c -> w_op (set_op w c o) a = w_op w a.
Proof. unfold set_op, put. cbn. intros H. now rewrite (proj2 (Nat.eqb_neq _ _) H). Qed.

Lemma set_op_set (w : world F) c o o' : same_except c w (set_op (set_op w c o) c o').
Proof.
  unfold same_except. repeat split; auto. intros a Ha. now rewrite !w_op_set_ne.
Qed.

(** the tail shared by all builders: C gets the lambda [k t] for each of matvec/rmatvec that A has *)
Lemma builder_ok (w : world F) a A c C (k : bool -> clo F) :
  w_op w a = Some A -> w_op w c = Some C -> a <> c ->
  let C1 := set_if (has (l_mv A)) false C (k false) in
  exists w' C', (w1 <- Ok (set_op w c (Some C1)) ;; A1 <- get (w_op w1) a ;;
     Ok (set_op w1 c (Some (set_if (has (l_rmv A1)) true C1 (k true))))) = Ok w' /\
    same_except c w w' /\ w_op w' c = Some C' /\ l_row C' = l_row C /\ l_col C' = l_col C /\
    l_mm C' = l_mm C /\ l_rmm C' = l_rmm C /\
    (forall t, has (l_fun t A) = true -> l_fun t C' = Some (k t)) /\
    (forall t, has (l_fun t A) = false -> l_fun t C' = l_fun t C).
Proof.
  intros EA EC Hne C1. cbn [bind]. rewrite (get_ok (w_op (set_op w c (Some C1))) a (a:=A)) by now rewrite w_op_set_ne.
  cbn [bind]. eexists. exists (set_if (has (l_rmv A)) true C1 (k true)). split; [reflexivity|].
  split; [apply set_op_set|]. split; [apply w_op_set|].
  unfold C1. destruct C as [rr cc mv rmv mm rmm]. destruct (l_mv A) as [k1|] eqn:E1; destruct (l_rmv A) as [k2|] eqn:E2;
    cbn [has set_if set_fun l_row l_col l_mv l_rmv l_mm l_rmm]; do 4 (split; [reflexivity|]); split; intros [|];
    cbn [l_fun]; rewrite ?E1, ?E2; cbn; intros; congruence.
Qed.

Lemma get_inv {A B} (f : nat -> option A) i (k : A -> res B) b : bind (get f i) k = Ok b -> exists a, f i = Some a /\ k a = Ok b.
Proof. unfold get. destruct (f i); cbn; intros H; [eauto|discriminate]. Qed.

Lemma l_io (A C : linop F) t : l_row A = l_row C -> l_col A = l_col C -> l_in t A = l_in t C /\ l_out t A = l_out t C.
Proof. destruct t; cbn; auto. Qed.

Lemma has_fun (A : linop F) t k : l_fun t A = Some k -> has (l_fun t A) = true.
Proof. now intros ->. Qed.

Lemma axpy_gen chk s (w : world F) a b c A B C :
  w_op w a = Some A -> w_op w b = Some B -> w_op w c = Some C ->
  l_row A = l_row B -> l_col A = l_col B -> l_row A = l_row C -> l_col A = l_col C ->
  (chk = true -> same_funs A B = true) ->
  ~ built_on w a c -> ~ built_on w b c ->
  exists w', op_axpy chk s w a b c = Ok w' /\ same_except c w w' /\
    forall t g h, computes w t a (l_in t A) (l_out t A) g -> computes w t b (l_in t A) (l_out t A) h ->
      computes w' t c (l_in t A) (l_out t A)
        (fun x => map (fun i => fadd (fn (g x) i) (fmul s (fn (h x) i))) (seq 0 (l_out t A))).
Proof.
  intros EA EB EC R1 C1 R2 C2 Hf Na Nb. assert (Hac : a <> c) by (intros ->; apply Na; constructor).
  unfold op_axpy. rewrite (get_ok _ _ EA), (get_ok _ _ EB), (get_ok _ _ EC). cbn [bind].
  unfold op_same_size. rewrite <- R1, <- R2, !Nat.eqb_refl. cbn [negb andb assert_ bind].
  assert (Hchk : negb chk || same_funs A B = true) by (destruct chk; cbn; auto). rewrite Hchk. cbn [assert_ bind].
  destruct (@builder_ok w a A c C (fun t => KAxpy t s a b) EA EC Hac) as (w' & C' & E & HS & EC' & HR & HC & _ & _ & HF & _).
  exists w'. split; [exact E|]. split; auto.
  intros t g h Hg Hh. destruct (computes_fun Hg) as (A0 & k & EA0 & _ & _ & Ek & _). rewrite EA in EA0. inversion EA0; subst A0.
  destruct (@l_io A C' t) as [I1 I2]; try congruence.
  apply (@fun_computes w' t c C' (KAxpy t s a b)); auto. { apply HF. eapply has_fun; eauto. }
  intros x Hx. split. { now rewrite map_length, seq_length. }
  apply (@kaxpy_computes w' t s a b (l_in t A) (l_out t A) g h x); auto.
  - exact (@frame_computes w w' c C C' EC EC' HS t a _ _ g Na Hg).
  - exact (@frame_computes w w' c C C' EC EC' HS t b _ _ h Nb Hh).
Qed.

Lemma matmul_gen (w : world F) a b c A B C :
  w_op w a = Some A -> w_op w b = Some B -> w_op w c = Some C ->
  l_col A = l_row B -> l_row A = l_row C -> l_col B = l_col C -> same_funs A B = true ->
  ~ built_on w a c -> ~ built_on w b c ->
  exists w', op_matmul w a b c = Ok w' /\ same_except c w w' /\
    (forall g h, computes w false a (l_col A) (l_row A) g -> computes w false b (l_col B) (l_row B) h ->
       computes w' false c (l_col B) (l_row A) (fun x => g (h x))) /\
    (forall g h, computes w true a (l_row A) (l_col A) g -> computes w true b (l_row B) (l_col B) h ->
       computes w' true c (l_row A) (l_col B) (fun x => h (g x))).
Proof.
  intros EA EB EC D1 D2 D3 Hf Na Nb. assert (Hac : a <> c) by (intros ->; apply Na; constructor).
  unfold op_matmul. rewrite (get_ok _ _ EA), (get_ok _ _ EB), (get_ok _ _ EC). cbn [bind].
  rewrite D1, <- D2, <- D3, !Nat.eqb_refl, Hf. cbn [assert_ bind].
  destruct (@builder_ok w a A c C (fun t => KProd t a b) EA EC Hac) as (w' & C' & E & HS & EC' & HR & HC & _ & _ & HF & _).
  exists w'. split; [exact E|]. split; auto. split.
  - intros g h Hg Hh. destruct (computes_fun Hg) as (A0 & k & EA0 & _ & _ & Ek & _). rewrite EA in EA0. inversion EA0; subst A0.
    apply (@fun_computes w' false c C' (KProd false a b)); cbn [l_in l_out]; auto; try congruence. { apply HF. eapply has_fun; eauto. }
    intros x Hx. pose proof (computes_len _ Hh Hx) as Hl. split. { eapply computes_len; [exact Hg|]. lia. }
    apply (@kprod_computes w' a b (l_col B) (l_row B) (l_row A) g h x); auto.
    + exact (@frame_computes w w' c C C' EC EC' HS false a _ _ g Na Hg).
    + exact (@frame_computes w w' c C C' EC EC' HS false b _ _ h Nb Hh).
  - intros g h Hg Hh. destruct (computes_fun Hg) as (A0 & k & EA0 & _ & _ & Ek & _). rewrite EA in EA0. inversion EA0; subst A0.
    apply (@fun_computes w' true c C' (KProd true a b)); cbn [l_in l_out]; auto; try congruence. { apply HF. eapply has_fun; eauto. }
    intros x Hx. pose proof (computes_len _ Hg Hx) as Hl. split. { eapply computes_len; [exact Hh|]. lia. }
    apply (@kprod_computes_t w' a b (l_row A) (l_row B) (l_col B) g h x); auto.
    + exact (@frame_computes w w' c C C' EC EC' HS true a _ _ g Na Hg).
    + exact (@frame_computes w w' c C C' EC EC' HS true b _ _ h Nb Hh).
Qed.

Lemma scalar_gen (k : bool -> clo F) f (w : world F) a c A C :
  w_op w a = Some A -> w_op w c = Some C -> l_row A = l_row C -> l_col A = l_col C ->
  ~ built_on w a c ->
  (forall w' t p q g x, w_sc w' = w_sc w -> computes w' t a p q g -> length x = p ->
     length (f x (g x)) = length (g x) /\ exists n, forall m, n <= m -> call m w' (k t) x = Ok (f x (g x))) ->
  exists w', op_scalar k w a c = Ok w' /\ same_except c w w' /\
    forall t g, computes w t a (l_in t A) (l_out t A) g ->
      computes w' t c (l_in t A) (l_out t A) (fun x => f x (g x)).
Proof.
  intros EA EC R C0 Na Hk. assert (Hac : a <> c) by (intros ->; apply Na; constructor).
  unfold op_scalar. rewrite (get_ok _ _ EA), (get_ok _ _ EC). cbn [bind].
  unfold op_same_size. rewrite R, !Nat.eqb_refl. cbn [negb andb assert_ bind].
  destruct (@builder_ok w a A c C k EA EC Hac) as (w' & C' & E & HS & EC' & HR & HC & _ & _ & HF & _).
  exists w'. split; [exact E|]. split; auto.
  intros t g Hg. destruct (computes_fun Hg) as (A0 & k' & EA0 & _ & _ & Ek & _). rewrite EA in EA0. inversion EA0; subst A0.
  destruct (@l_io A C' t) as [I1 I2]; try congruence.
  assert (Hg' : computes w' t a (l_in t A) (l_out t A) g) by exact (@frame_computes w w' c C C' EC EC' HS t a _ _ g Na Hg).
  apply (@fun_computes w' t c C' (k t)); auto. { apply HF. eapply has_fun; eauto. }
  intros x Hx. destruct HS as (_ & _ & _ & _ & S5). destruct (Hk w' t _ _ g x S5 Hg' Hx) as (HL & n & Hn).
  split; [|eauto]. rewrite HL. eapply computes_len; eauto.
Qed.

(** ** a call through a self-reference never returns *)
Lemma call_nofuel_axpy (w : world F) t s a b A :
  w_op w a = Some A -> l_fun t A = Some (KAxpy t s a b) ->
  forall n x, length x = l_in t A -> call n w (KAxpy t s a b) x = NoFuel.
Proof.
  intros EA Ek. induction n as [|n IH]; intros x Hx; [reflexivity|]. cbn [call]. rewrite (get_ok _ _ EA). cbn [bind].
  unfold opvec at 1. rewrite (get_ok _ _ EA). cbn [bind]. rewrite repeat_length, Hx, !Nat.eqb_refl. cbn [assert_ bind].
  rewrite Ek, IH by auto. reflexivity.
Qed.

Lemma opvec_self_nofuel (w : world F) t a A k x y n :
  w_op w a = Some A -> l_fun t A = Some k -> length x = l_in t A -> length y = l_out t A ->
  call n w k x = NoFuel -> opvec (call n w) w t a x y = NoFuel.
Proof.
  intros EA Ek Hx Hy H. unfold opvec. rewrite (get_ok _ _ EA). cbn [bind]. rewrite Hx, Hy, !Nat.eqb_refl. cbn [assert_ bind].
  rewrite Ek, H. reflexivity.
Qed.

Lemma call_nofuel_one (w : world F) t a A k (kk : clo F) :
  w_op w a = Some A -> l_fun t A = Some kk ->
  (kk = k) -> (exists op al, k = KShift t op a al) \/ (exists g al, k = KScale t g a al) ->
  forall n x, length x = l_in t A -> call n w k x = NoFuel.
Proof.
  intros EA Ek -> Hk. induction n as [|n IH]; intros x Hx; [reflexivity|].
  destruct Hk as [(op & al & ->)|(g & al & ->)]; cbn [call]; rewrite (get_ok _ _ EA); cbn [bind];
    (erewrite (@opvec_self_nofuel w t a A); [reflexivity|eauto|eauto|auto|now rewrite repeat_length|auto]).
Qed.

End LinOpProof.
