(** * LobWitness: rationals with exact square roots of squares, and a simulated ?sygvd, for concrete runs (C73-C81). *)
From Coq Require Import QArith Qcanon.
From Verif Require Import Base Scalar Spec SolverModel SolverSpec LobModel LobSpec.
Set Implicit Arguments.

(** the rationals; fsqrt is exact on squares of rationals (all runs below take only such roots, or the root is unused) *)
Definition qsqrt (x : Qc) : Qc := Q2Qc (Z.sqrt (Qnum x) # Z.to_pos (Z.sqrt (Zpos (Qden x)))).
Definition Qcs : Scalar Qc := {|
  f0 := 0%Qc; f1 := 1%Qc; fadd := Qcplus; fsub := Qcminus; fmul := Qcmult; fdiv := Qcdiv;
  fopp := Qcopp; fabs := fun x => match (x ?= 0)%Qc with Lt => (- x)%Qc | _ => x end;
  fsqrt := qsqrt;
  feqb := fun x y => match (x ?= y)%Qc with Eq => true | _ => false end;
  fltb := fun x y => match (x ?= y)%Qc with Lt => true | _ => false end;
  fnan := fun _ => false |}.
Definition q (a : Z) (b : positive) : Qc := Q2Qc (a # b).

Section Sim.
Context {F : Type} {SF : Scalar F}.
Local Open Scope F_scope.

(** ?sygvd: info = k + j for the first leading minor of B that is not positive, A and W untouched; otherwise the
    decomposition from a table, or info = 1 *)
Definition first_bad (k : nat) (Sb : list (list F)) : option nat :=
  find (fun j => negb (fltb 0 (det j (rowf Sb)))) (seq 1 k).
Definition vec_eqb (u v : list F) : bool := (length u =? length v)%nat && forallb (fun p => feqb (fst p) (snd p)) (List.combine u v).
Definition rows_eqb (U V : list (list F)) : bool := (length U =? length V)%nat && forallb (fun p => vec_eqb (fst p) (snd p)) (List.combine U V).
Definition entry := (list (list F) * list (list F) * list F * list (list F))%type.
Definition sim (table : list entry) : sygvd_t (F:=F) := fun _ Sa Sb =>
  let k := length Sb in
  match first_bad k Sb with
  | Some j => (Z.of_nat (k + j), repeat 0 k, Sa)
  | None =>
      match find (fun e : entry => let '(a, b, _, _) := e in rows_eqb a Sa && rows_eqb b Sb) table with
      | Some (_, _, lam, V) => (0%Z, lam, V)
      | None => (1%Z, repeat 0 k, Sa)
      end
  end.

Lemma sim_minors table : lapack_minors (sim table).
Proof.
  intros call k Sa Sb j _ ((HL & _) & _) Hj Hi Hb. unfold sim. rewrite HL.
  assert (E : first_bad k Sb = Some j).
  { unfold first_bad. assert (G : forall d a, (a <= j < a + d)%nat -> (1 <= a)%nat -> find (fun j => negb (fltb 0 (det j (rowf Sb)))) (seq a d) = Some j).
    { induction d as [|d IH]; intros a Ha H1; [lia|]. cbn [seq find]. destruct (Nat.eq_dec a j) as [ -> |Hne].
      - rewrite Hb. reflexivity.
      - rewrite Hi by lia. cbn [negb]. apply IH; lia. }
    apply G; lia. }
  rewrite E. reflexivity.
Qed.

Hypothesis Heq : forall a b : F, feqb a b = true -> a = b.
Lemma vec_eqb_eq u v : vec_eqb u v = true -> u = v.
Proof.
  unfold vec_eqb. intros H. apply andb_prop in H. destruct H as (H1 & H2). apply Nat.eqb_eq in H1. revert v H1 H2.
  induction u as [|a u IH]; intros [|b v] H1 H2; try discriminate; auto. cbn in H2. apply andb_prop in H2. destruct H2 as (H2 & H3).
  f_equal; auto.
Qed.
Lemma rows_eqb_eq U V : rows_eqb U V = true -> U = V.
Proof.
  unfold rows_eqb. intros H. apply andb_prop in H. destruct H as (H1 & H2). apply Nat.eqb_eq in H1. revert V H1 H2.
  induction U as [|a u IH]; intros [|b v] H1 H2; try discriminate; auto. cbn in H2. apply andb_prop in H2. destruct H2 as (H2 & H3).
  f_equal; auto. now apply vec_eqb_eq.
Qed.

(** a decidable form of [decomposes] *)
Definition all2 (k : nat) (f : nat -> nat -> bool) : bool := forallb (fun i => forallb (f i) (seq 0 k)) (seq 0 k).
Lemma all2_ok k f : all2 k f = true -> forall i j, (i < k)%nat -> (j < k)%nat -> f i j = true.
Proof.
  unfold all2. intros H i j Hi Hj. rewrite forallb_forall in H. specialize (H i ltac:(apply in_seq; lia)).
  rewrite forallb_forall in H. apply H. apply in_seq. lia.
Qed.
Definition decomposesb (e : entry) : bool :=
  let '(Sa, Sb, lam, V) := e in let k := length Sa in
  (length lam =? k)%nat && (length V =? k)%nat && forallb (fun r => length r =? k)%nat V &&
  all2 k (fun i j => negb ((i <? j)%nat) || negb (fltb (fn lam j) (fn lam i))) &&
  all2 k (fun i j => feqb (quad k Sb (rowf V i) (rowf V j)) (if (i =? j)%nat then 1 else 0)) &&
  all2 k (fun i r => feqb (mv k (rowf Sa) (rowf V i) r) (fn lam i * mv k (rowf Sb) (rowf V i) r)).
Lemma decomposesb_ok Sa Sb lam V : decomposesb (Sa, Sb, lam, V) = true -> decomposes (length Sa) Sa Sb lam V.
Proof.
  unfold decomposesb. intros H. repeat (apply andb_prop in H; destruct H as (H & ?)).
  apply Nat.eqb_eq in H. rename H0 into D5, H1 into D4, H2 into D3, H3 into D2, H4 into D1. apply Nat.eqb_eq in D1.
  split; auto. split; [split; auto|split; [|split]].
  - intros i Hi. rewrite forallb_forall in D2. apply Nat.eqb_eq, D2. apply nth_In. lia.
  - intros i j Hij. pose proof (@all2_ok _ _ D3 i j ltac:(lia) ltac:(lia)) as G.
    cbv beta in G. rewrite (proj2 (Nat.ltb_lt i j)) in G by lia. cbn in G. now destruct (fltb (fn lam j) (fn lam i)).
  - intros i j Hi Hj. apply Heq. exact (@all2_ok _ _ D4 i j Hi Hj).
  - intros i j Hi Hj. apply Heq. exact (@all2_ok _ _ D5 i j Hi Hj).
Qed.
Lemma sim_info0 table : forallb decomposesb table = true -> lapack_info0 (sim table).
Proof.
  intros HT call k Sa Sb info lam V ((HL & _) & _) ((HLb & _) & _) Hs Hi. unfold sim in Hs. rewrite HLb in Hs.
  destruct (first_bad k Sb) as [j|] eqn:Eb.
  { exfalso. unfold first_bad in Eb. apply find_some in Eb. destruct Eb as (Eb & _). apply in_seq in Eb. injection Hs as E1 E2 E3. lia. }
  destruct (find _ table) as [[[[a b] lam'] V']|] eqn:Ef; [|exfalso; injection Hs as E1 E2 E3; lia].
  apply find_some in Ef. destruct Ef as (Hin & He). apply andb_prop in He. destruct He as (Ha & Hb). apply rows_eqb_eq in Ha, Hb. subst a b.
  injection Hs as <- <- <-. rewrite forallb_forall in HT. specialize (HT _ Hin). rewrite <- HL. now apply decomposesb_ok.
Qed.
End Sim.

Lemma Qcs_eq (a b : Qc) : @feqb Qc Qcs a b = true <-> a = b.
Proof.
  cbn. split; [|intros ->; unfold Qccompare; now rewrite (proj1 (Qeq_alt b b) (Qeq_refl b))].
  intros H. apply Qc_is_canon. apply Qeq_alt. unfold Qccompare in H. now destruct (Qcompare a b).
Qed.
Lemma Qcs_lt (a b : Qc) : @fltb Qc Qcs a b = true <-> (a < b)%Qc.
Proof. cbn. unfold Qclt, Qccompare. rewrite Qlt_alt. destruct (Qcompare a b); split; intros; congruence. Qed.
Lemma Qcs_ordered : @ordered_field Qc Qcs.
Proof.
  constructor.
  - exact Qcrt.
  - split; [|split].
    + intros a b Hb. cbn. unfold Qcdiv; rewrite <- Qcmult_assoc, (Qcmult_comm (/ b)), Qcmult_inv_r by exact Hb; apply Qcmult_1_r.
    + exact Qcs_eq.
    + reflexivity.
  - intros a b. rewrite !Qcs_lt. destruct (Q_dec a b) as [[H|H]|H]; auto.
  - intros a. cbn. unfold Qccompare. now rewrite (proj1 (Qeq_alt a a) (Qeq_refl a)).
  - intros a b c. rewrite !Qcs_lt. apply Qclt_trans.
  - intros a b c. rewrite !Qcs_lt. intros H. apply Qcnot_le_lt. intros G. apply (Qclt_not_le _ _ H).
    pose proof (Qcplus_le_compat _ _ _ _ G (Qcle_refl (- c))) as K. cbn in K.
    rewrite <- !Qcplus_assoc, Qcplus_opp_r, !Qcplus_0_r in K. exact K.
  - intros a b. rewrite !Qcs_lt. intros H1 H2. cbn. pose proof (Qcmult_lt_compat_r 0 a b H2 H1) as K. now rewrite Qcmult_0_l in K.
  - reflexivity.
Qed.
