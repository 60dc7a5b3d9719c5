(** * SumFacts: finite sums in exact arithmetic (proof support). *)
From Coq Require Import Ring.
From Verif Require Import Base Scalar Spec.
Set Implicit Arguments.

Section SumFacts.
Context {F : Type} {SF : Scalar F} (Hex : exact SF).
Local Open Scope F_scope.
Local Notation triple := (nat * nat * F)%type.
Let Hrt : ring_theory f0 f1 fadd fmul fsub fopp (@eq F) := Hex.
Add Ring Fring : Hrt.

Lemma ex_one_zero (x y : F) : 1 * x + 0 * y = x.
Proof. ring. Qed.
Lemma ex_op_00 (op : F -> F -> F) : op = fadd \/ op = fsub -> op 0 0 = 0.
Proof. intros [-> | ->]; ring. Qed.
Lemma ex_op_swap (op : F -> F -> F) a b c d : op = fadd \/ op = fsub -> op a b + op c d = op (a + c) (b + d).
Proof. intros [-> | ->]; ring. Qed.

Lemma sum_ext n (f g : nat -> F) : (forall i, (i < n)%nat -> f i = g i) -> sum_n n f = sum_n n g.
Proof. induction n as [|n IH]; intros H; cbn; auto. rewrite IH, H by (auto; lia). auto. Qed.

Lemma sum_zero n : sum_n n (fun _ => 0) = 0.
Proof. induction n as [|n IH]; cbn; auto. rewrite IH. ring. Qed.

Lemma sum_add n f g : sum_n n (fun i => f i + g i) = sum_n n f + sum_n n g.
Proof. induction n as [|n IH]; cbn; [ring|]. rewrite IH. ring. Qed.

Lemma sum_sub n f g : sum_n n (fun i => f i - g i) = sum_n n f - sum_n n g.
Proof. induction n as [|n IH]; cbn; [ring|]. rewrite IH. ring. Qed.

Lemma sum_scal n a f : sum_n n (fun i => a * f i) = a * sum_n n f.
Proof. induction n as [|n IH]; cbn; [ring|]. rewrite IH. ring. Qed.

Lemma sum_scal_r n a f : sum_n n (fun i => f i * a) = sum_n n f * a.
Proof. induction n as [|n IH]; cbn; [ring|]. rewrite IH. ring. Qed.

Lemma sum_swap n m (f : nat -> nat -> F) :
  sum_n n (fun i => sum_n m (fun j => f i j)) = sum_n m (fun j => sum_n n (fun i => f i j)).
Proof.
  induction n as [|n IH]; cbn.
  - now rewrite sum_zero.
  - rewrite IH. now rewrite <- sum_add.
Qed.

(** only one term is non-zero *)
Lemma sum_single n k (f : nat -> F) :
  (forall i, (i < n)%nat -> i <> k -> f i = 0) ->
  sum_n n f = if k <? n then f k else 0.
Proof.
  induction n as [|n IH]; intros H; cbn [sum_n].
  - destruct (Nat.ltb_spec k 0); [lia|auto].
  - rewrite IH by (intros; apply H; lia).
    destruct (Nat.ltb_spec k n); destruct (Nat.ltb_spec k (S n)); try lia.
    + rewrite (H n) by lia. ring.
    + replace n with k by lia. ring.
    + rewrite (H n) by lia. ring.
Qed.

(** a left fold from 0 that only adds *)
Lemma fold_add_acc {A} (g : A -> F) l a : fold_left (fun t p => t + g p) l a = a + fold_right (fun p t => g p + t) 0 l.
Proof. revert a; induction l as [|p l IH]; intros a; cbn; [ring|]. rewrite IH. ring. Qed.

Lemma fold_seq_sum f n a : fold_left (fun t p => t + f p) (seq 0 n) a = a + sum_n n f.
Proof.
  revert a; induction n as [|n IH]; intros a; [cbn; ring|].
  rewrite seq_S, fold_left_app, IH. cbn. ring.
Qed.

(** weighted sum of the entries of row i *)
Definition wrow (ts : list triple) (x : nat -> F) (i : nat) : F :=
  fold_right (fun t acc => if fst (fst t) =? i then snd t * x (snd (fst t)) + acc else acc) 0 ts.
Definition wcol (ts : list triple) (x : nat -> F) (j : nat) : F :=
  fold_right (fun t acc => if snd (fst t) =? j then snd t * x (fst (fst t)) + acc else acc) 0 ts.

Lemma mv_summed M N (ts : list triple) x i :
  in_range M N ts -> mv N (summed ts) x i = wrow ts x i.
Proof.
  intros H. unfold mv. induction H as [|[[r c] v] ts [Hr Hc] H IH]; cbn [summed wrow fold_right fst snd] in *.
  - rewrite (@sum_ext _ _ (fun _ => 0)) by (intros; ring). apply sum_zero.
  - fold (wrow ts x i). destruct (Nat.eqb_spec r i); cbn [andb]; auto.
    rewrite (@sum_ext _ _ (fun j => (if c =? j then v * x j else 0) + summed ts i j * x j)).
    + rewrite sum_add, IH. f_equal.
      rewrite (@sum_single _ c).
      * rewrite (proj2 (Nat.ltb_lt _ _) Hc), Nat.eqb_refl. auto.
      * intros j Hj Hne. destruct (Nat.eqb_spec c j); [congruence|auto].
    + intros j Hj. destruct (Nat.eqb_spec c j); ring.
Qed.

Lemma mvT_summed M N (ts : list triple) x j :
  in_range M N ts -> mv M (fun j' i' => summed ts i' j') x j = wcol ts x j.
Proof.
  intros H. unfold mv. induction H as [|[[r c] v] ts [Hr Hc] H IH]; cbn [summed wcol fold_right fst snd] in *.
  - rewrite (@sum_ext _ _ (fun _ => 0)) by (intros; ring). apply sum_zero.
  - fold (wcol ts x j). destruct (Nat.eqb_spec c j).
    + rewrite (@sum_ext _ _ (fun i => (if r =? i then v * x i else 0) + summed ts i j * x i)).
      * rewrite sum_add, IH. f_equal.
        rewrite (@sum_single _ r).
        -- rewrite (proj2 (Nat.ltb_lt _ _) Hr), Nat.eqb_refl. auto.
        -- intros i Hi Hne. destruct (Nat.eqb_spec r i); [congruence|auto].
      * intros i Hi. rewrite andb_true_r. destruct (Nat.eqb_spec r i); ring.
    + rewrite <- IH. apply sum_ext. intros i Hi. now rewrite andb_false_r.
Qed.

Lemma wrow_filter ts x i :
  wrow ts x i = fold_right (fun t acc => snd t * x (snd (fst t)) + acc) 0 (filter (fun t => fst (fst t) =? i) ts).
Proof.
  induction ts as [|t ts IH]; cbn; auto. fold (wrow ts x i).
  destruct (fst (fst t) =? i); cbn; now rewrite IH.
Qed.

Lemma wcol_filter ts x j :
  wcol ts x j = fold_right (fun t acc => snd t * x (fst (fst t)) + acc) 0 (filter (fun t => snd (fst t) =? j) ts).
Proof.
  induction ts as [|t ts IH]; cbn; auto. fold (wcol ts x j).
  destruct (snd (fst t) =? j); cbn; now rewrite IH.
Qed.

(** adjointness of a matrix given as a function *)
Lemma adjoint M N (A : nat -> nat -> F) x y :
  dotp M (mv N A x) y = dotp N x (mv M (fun j i => A i j) y).
Proof.
  unfold dotp, mv.
  rewrite (@sum_ext _ _ (fun i => sum_n N (fun j => A i j * x j * y i)))
    by (intros; symmetry; apply sum_scal_r).
  rewrite sum_swap. apply sum_ext. intros j Hj.
  rewrite <- sum_scal. apply sum_ext. intros; ring.
Qed.

(** summed = last_wins when no position is repeated *)
Lemma summed_notin (ts : list triple) i j : ~ In (i, j) (map fst ts) -> summed ts i j = 0.
Proof.
  induction ts as [|[[r c] v] ts IH]; cbn; auto. intros H.
  destruct (Nat.eqb_spec r i); destruct (Nat.eqb_spec c j); cbn; subst; auto.
  destruct H. auto.
Qed.

Lemma last_wins_notin (ts : list triple) i j : ~ In (i, j) (map fst ts) -> last_wins ts i j = 0.
Proof.
  induction ts as [|[[r c] v] ts IH]; cbn [map fst summed last_wins]; auto. intros H.
  assert (H2 : ~ In (i, j) (map fst ts)) by (intros G; apply H; cbn; auto).
  rewrite IH by auto. destruct (existsb _ ts); auto.
  destruct (Nat.eqb_spec r i); destruct (Nat.eqb_spec c j); cbn [andb]; auto.
  subst. destruct H. cbn. auto.
Qed.

Lemma existsb_pos (ts : list triple) i j :
  existsb (fun t => (fst (fst t) =? i) && (snd (fst t) =? j)) ts = true <-> In (i, j) (map fst ts).
Proof.
  rewrite existsb_exists, in_map_iff. split.
  - intros ([[r c] v] & HIn & E). cbn [fst snd] in E.
    apply andb_prop in E. destruct E as [E1%Nat.eqb_eq E2%Nat.eqb_eq]. subst.
    exists (i, j, v). auto.
  - intros ([[r c] v] & E & HIn). cbn [fst] in E. inversion E; subst. exists (i, j, v). split; auto.
    cbn [fst snd]. now rewrite !Nat.eqb_refl.
Qed.

Lemma summed_last_wins (ts : list triple) i j : NoDup (map fst ts) -> summed ts i j = last_wins ts i j.
Proof.
  induction ts as [|[[r c] v] ts IH]; cbn [map fst summed last_wins]; auto. intros H.
  apply NoDup_cons_iff in H. destruct H as [Hn Hd]. specialize (IH Hd).
  destruct (existsb _ ts) eqn:E.
  - apply existsb_pos in E.
    destruct (Nat.eqb_spec r i); destruct (Nat.eqb_spec c j); cbn [andb]; auto.
    subst. destruct (Hn E).
  - assert (E' : ~ In (i, j) (map fst ts)) by (rewrite <- existsb_pos; congruence).
    rewrite summed_notin by auto.
    destruct ((r =? i) && (c =? j)); auto. ring.
Qed.

End SumFacts.
