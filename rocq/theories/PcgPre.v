(** * PcgPre: the Jacobi and SOR preconditioners are symmetric and definite (proof support for C100). *)
From Coq Require Import Ring.
From Verif Require Import Base Scalar Spec SumFacts SolverModel SolverSpec SolverProof CgProof PcgSpec LobSpec LobProof4.
Set Implicit Arguments.

Section Pre.
Context {F : Type} {SF : Scalar F}.
Local Open Scope F_scope.
Hypothesis Ho : ordered_field (F:=F).
Let Hex : exact SF := of_ring Ho.
Let Hrt : ring_theory f0 f1 fadd fmul fsub fopp (@eq F) := Hex.
Add Ring FringPre : Hrt.
Variables (n : nat) (M : nat -> nat -> F).
Local Notation D u v := (dotp n u v).

Lemma zero_or_not (v : nat -> F) : (forall i, (i < n)%nat -> v i = 0) \/ exists i, (i < n)%nat /\ v i <> 0.
Proof.
  assert (H : forall k, (forall i, (i < k)%nat -> v i = 0) \/ exists i, (i < k)%nat /\ v i <> 0); [|apply H].
  induction k as [|k IH]; [left; lia|]. destruct IH as [IH|(i & Hi & H)].
  - destruct (F_eq_dec Ho (v k) 0) as [E|E].
    + left. intros i Hi. destruct (Nat.eq_dec i k) as [ -> |]; auto. apply IH. lia.
    + right. exists k. split; auto.
  - right. exists i. split; auto.
Qed.
Lemma positive_is_definite : positive_definite n M -> definite n M.
Proof.
  intros HP v H. destruct (zero_or_not v) as [G|G]; auto. exfalso. destruct H as [H|H].
  - destruct G as (i & Hi & E). pose proof (sumF_pos Ho v Hi E) as G. unfold dotp in H. rewrite H, (of_irr Ho) in G. discriminate.
  - specialize (HP v G). rewrite H, (of_irr Ho) in HP. discriminate.
Qed.
Lemma diag_positive i : positive_definite n M -> (i < n)%nat -> fltb 0 (M i i) = true.
Proof.
  intros HP Hi. specialize (HP (fun j => if (j =? i)%nat then 1 else 0)).
  assert (E : D (fun j => if (j =? i)%nat then 1 else 0) (mv n M (fun j => if (j =? i)%nat then 1 else 0)) = M i i).
  { unfold dotp. rewrite (@sum_ext F SF n _ (fun k => if (k =? i)%nat then mv n M (fun j => if (j =? i)%nat then 1 else 0) k else 0)).
    - rewrite (sum_delta' Ho), (proj2 (Nat.ltb_lt i n)) by auto. unfold mv.
      rewrite (@sum_ext F SF n _ (fun j => if (j =? i)%nat then M i j else 0)) by (intros j Hj; destruct (j =? i)%nat; ring).
      now rewrite (sum_delta' Ho), (proj2 (Nat.ltb_lt i n)) by auto.
    - intros k Hk. destruct (k =? i)%nat; ring. }
  rewrite E in HP. apply HP. exists i. split; auto. rewrite Nat.eqb_refl. apply (one_zero Ho).
Qed.
(** a weighted sum of squares vanishes only if all are 0 *)
Lemma weighted_zero (e y : nat -> F) : (forall i, (i < n)%nat -> fltb 0 (e i) = true) -> sum_n n (fun i => e i * (y i * y i)) = 0 ->
  forall i, (i < n)%nat -> y i = 0.
Proof.
  intros He. assert (NN : forall k, (k <= n)%nat -> leq 0 (sum_n k (fun i => e i * (y i * y i)))).
  { intros k Hk. apply (sumF_nonneg Ho). intros i Hi. apply (le_mul Ho); [apply (ltle Ho), He; lia|apply (sq_nonneg Ho)]. }
  assert (G : forall k, (k <= n)%nat -> sum_n k (fun i => e i * (y i * y i)) = 0 -> forall i, (i < k)%nat -> y i = 0).
  { induction k as [|k IH]; intros Hk H i Hi; [lia|]. cbn [sum_n] in H.
    assert (Y : y k = 0).
    { destruct (F_eq_dec Ho (y k) 0) as [|Ny]; auto. exfalso.
      pose proof (of_mul Ho _ _ (He k ltac:(lia)) (sq_pos Ho Ny)) as P. specialize (NN k ltac:(lia)).
      apply (lt_not_le (F:=F) P). rewrite <- H. apply (le_sub Ho).
      match goal with |- leq _ ?t => replace t with (sum_n k (fun i => e i * (y i * y i))) by ring end. exact NN. }
    destruct (Nat.eq_dec i k) as [ -> |]; auto. apply IH; try lia. rewrite <- H, Y. ring. }
  apply G. lia.
Qed.
Lemma inv_pos a : fltb 0 a = true -> fltb 0 (1 / a) = true.
Proof.
  intros H. assert (Na : a <> 0) by (intros E; rewrite E, (of_irr Ho) in H; discriminate).
  assert (E : 1 / a * a = 1) by (apply (div_mul (of_field Ho)); auto).
  destruct (of_tri Ho 0 (1 / a)) as [G|[G|G]]; auto; exfalso.
  - rewrite <- G in E. apply (one_zero Ho). rewrite <- E. ring.
  - apply (neg_pos Ho) in G. pose proof (of_mul Ho _ _ G H) as P. replace (- (1 / a) * a) with (- (1 / a * a)) in P by ring. rewrite E in P.
    apply (lt_not_le (F:=F) (of_01 Ho)). apply (le_sub Ho). replace (0 - 1) with (- (1) : F) by ring. now apply (ltle Ho).
Qed.

(** Jacobi *)
Definition Kjac (u : nat -> F) (i : nat) : F := 1 / M i i * u i.
Lemma jac_map : (forall i, (i < n)%nat -> fltb 0 (M i i) = true) -> sym_definite_map n Kjac.
Proof.
  intros HM. split; [split|split].
  - intros u v H i Hi. unfold Kjac. now rewrite H.
  - intros u a v i Hi. unfold Kjac. ring.
  - intros u v. unfold dotp, Kjac. apply sum_ext. intros; ring.
  - intros u H. apply (@weighted_zero (fun i => 1 / M i i) u); [intros; apply inv_pos; auto|].
    rewrite <- H. unfold dotp, Kjac. apply sum_ext. intros; ring.
Qed.

(** the two substitutions of the SOR preconditioner: d = inverse of the scaled diagonal *)
Variables (e d : nat -> F).
Hypothesis Hed : forall i, (i < n)%nat -> e i * d i = 1.
Definition rel (r y z : nat -> F) : Prop := forall i, (i < n)%nat ->
  y i = (r i - sum_n i (fun j => M i j * y j)) * d i /\ z i = y i - sum_n n (fun j => if (i <? j)%nat then M i j * z j else 0) * d i.
Lemma rel_unique r y z r' y' z' : (forall i, (i < n)%nat -> r i = r' i) -> rel r y z -> rel r' y' z' ->
  (forall i, (i < n)%nat -> y i = y' i) /\ forall i, (i < n)%nat -> z i = z' i.
Proof.
  intros Er H H'. assert (Y : forall i, (i < n)%nat -> y i = y' i).
  { intros i. induction i as [i IH] using (well_founded_induction lt_wf). intros Hi. destruct (H i Hi) as (-> & _). destruct (H' i Hi) as (-> & _).
    rewrite Er by auto. f_equal. f_equal. apply sum_ext. intros j Hj. rewrite IH by lia. reflexivity. }
  split; auto. assert (G : forall k i, (i < n)%nat -> (n - i <= k)%nat -> z i = z' i).
  { induction k as [|k IH]; intros i Hi Hk; [lia|]. destruct (H i Hi) as (_ & ->). destruct (H' i Hi) as (_ & ->). rewrite Y by auto.
    f_equal. f_equal. apply sum_ext. intros j Hj. destruct (Nat.ltb_spec i j); auto. rewrite (IH j) by lia. reflexivity. }
  intros i Hi. apply (G n); lia.
Qed.
Lemma rel_lin r y z r' y' z' a : rel r y z -> rel r' y' z' ->
  rel (fun i => r i + a * r' i) (fun i => y i + a * y' i) (fun i => z i + a * z' i).
Proof.
  intros H H' i Hi. destruct (H i Hi) as (E1 & E2). destruct (H' i Hi) as (E3 & E4). split.
  - rewrite (@sum_ext F SF i _ (fun j => M i j * y j + a * (M i j * y' j))) by (intros; ring).
    rewrite (sum_add Hex), (sum_scal Hex). rewrite E1, E3. ring.
  - rewrite (@sum_ext F SF n _ (fun j => (if (i <? j)%nat then M i j * z j else 0) + a * (if (i <? j)%nat then M i j * z' j else 0))).
    + rewrite (sum_add Hex), (sum_scal Hex). rewrite E2, E4. ring.
    + intros j Hj. destruct (i <? j)%nat; ring.
Qed.
Lemma sum_prefix k (f : nat -> F) : (k <= n)%nat -> sum_n k f = sum_n n (fun j => if (j <? k)%nat then f j else 0).
Proof.
  clear e d Hed M. induction n as [|m IH]; intros Hk.
  - replace k with 0%nat by lia. reflexivity.
  - cbn [sum_n]. destruct (Nat.eq_dec k (S m)) as [ -> |Hne].
    + cbn [sum_n]. rewrite (proj2 (Nat.ltb_lt m (S m))) by lia. f_equal. apply sum_ext. intros j Hj. now rewrite (proj2 (Nat.ltb_lt j (S m))) by lia.
    + rewrite IH by lia. destruct (Nat.ltb_spec m k); [lia|]. ring.
Qed.
(** r . z' = sum of e y y' *)
Lemma rel_form r y z r' y' z' : symmetric n M -> rel r y z -> rel r' y' z' -> D r z' = sum_n n (fun i => e i * (y i * y' i)).
Proof.
  intros Hs H H'.
  assert (Er : forall i, (i < n)%nat -> r i = e i * y i + sum_n n (fun j => if (j <? i)%nat then M i j * y j else 0)).
  { intros i Hi. destruct (H i Hi) as (E & _). rewrite <- (@sum_prefix i (fun j => M i j * y j)) by lia.
    assert (G : e i * y i = r i - sum_n i (fun j => M i j * y j)).
    { transitivity ((r i - sum_n i (fun j => M i j * y j)) * (e i * d i)); [rewrite E at 1; ring|rewrite Hed by auto; ring]. }
    rewrite G. ring. }
  assert (Ey : forall i, (i < n)%nat -> e i * y' i = e i * z' i + sum_n n (fun j => if (i <? j)%nat then M i j * z' j else 0)).
  { intros i Hi. destruct (H' i Hi) as (_ & E). set (s := sum_n n (fun j => if (i <? j)%nat then M i j * z' j else 0)) in *.
    assert (G : y' i = z' i + s * d i) by (rewrite E; ring). rewrite G. transitivity (e i * z' i + s * (e i * d i)); [ring|]. rewrite Hed by auto. ring. }
  unfold dotp. rewrite (@sum_ext F SF n _ (fun i => e i * (y i * z' i) + sum_n n (fun j => if (j <? i)%nat then M i j * y j * z' i else 0))).
  2:{ intros i Hi. rewrite Er by auto. transitivity (e i * (y i * z' i) + sum_n n (fun j => if (j <? i)%nat then M i j * y j else 0) * z' i); [ring|].
      f_equal. rewrite <- (sum_scal_r Hex). apply sum_ext. intros j Hj. destruct (j <? i)%nat; ring. }
  rewrite (sum_add Hex), (sum_swap Hex), <- (sum_add Hex). apply sum_ext. intros i Hi.
  transitivity (y i * (e i * y' i)); [|ring]. rewrite Ey by auto.
  rewrite (@sum_ext F SF n _ (fun j => y i * (if (i <? j)%nat then M i j * z' j else 0))).
  - rewrite (sum_scal Hex). ring.
  - intros j Hj. destruct (i <? j)%nat; [rewrite (Hs j i) by auto|]; ring.
Qed.
Lemma sor_map K : symmetric n M -> (forall i, (i < n)%nat -> fltb 0 (e i) = true) -> (forall u, exists y, rel u y (K u)) -> sym_definite_map n K.
Proof.
  intros Hs He HK. split; [split|split].
  - intros u v H i Hi. destruct (HK u) as (y & Hu), (HK v) as (y' & Hv). apply (rel_unique H Hu Hv); auto.
  - intros u a v i Hi. destruct (HK u) as (y & Hu), (HK v) as (y' & Hv), (HK (fun j => u j + a * v j)) as (y2 & Hw).
    destruct (rel_unique (r := fun j => u j + a * v j) (r' := fun j => u j + a * v j) (fun _ _ => eq_refl) Hw (rel_lin a Hu Hv)) as (_ & G).
    exact (G i Hi).
  - intros u v. destruct (HK u) as (y & Hu), (HK v) as (y' & Hv).
    rewrite (rel_form Hs Hu Hv). rewrite (dotp_comm Hex n (K u) v), (rel_form Hs Hv Hu). apply sum_ext. intros; ring.
  - intros u H i Hi. destruct (HK u) as (y & Hu). rewrite (rel_form Hs Hu Hu) in H. pose proof (@weighted_zero e y He H) as Z.
    destruct (Hu i Hi) as (E & _). assert (G : e i * y i = u i - sum_n i (fun j => M i j * y j)).
    { transitivity ((u i - sum_n i (fun j => M i j * y j)) * (e i * d i)); [rewrite E at 1; ring|rewrite Hed by auto; ring]. }
    rewrite Z in G by auto. rewrite (@sum_ext F SF i _ (fun _ => 0)) in G by (intros j Hj; rewrite Z by lia; ring). rewrite (sum_zero Hex) in G.
    transitivity (u i - 0); [ring|]. rewrite <- G. ring.
Qed.
End Pre.
