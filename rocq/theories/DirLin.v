(** * DirLin: triangular systems and row interchanges (linear algebra behind C82 .. C86). *)
From Coq Require Import ZArith Ring.
From Verif Require Import Base Scalar Spec SumFacts SolverSpec DirModel DirSpec.
Set Implicit Arguments.

Section DirLin.
Context {F : Type} {SF : Scalar F}.
Hypothesis Hex : exact SF.
Hypothesis Hf : field_arith (F:=F).
Let Hrt : ring_theory (f0 (Scalar:=SF)) f1 fadd fmul fsub fopp eq := Hex.
Add Ring Fdl : Hrt.
Local Open Scope F_scope.

Lemma dl_dec (a b : F) : a = b \/ a <> b.
Proof. destruct Hf as (_ & H & _). destruct (feqb a b) eqn:E; [left; now apply H|right; intro C; apply H in C; congruence]. Qed.
Lemma dl_div (a b : F) : b <> 0 -> (a / b) * b = a.
Proof. apply Hf. Qed.
Lemma dl_nzd (a b : F) : a * b = 0 -> b <> 0 -> a = 0.
Proof. intros H Hb. transitivity (a * b * (1 / b)); [|rewrite H; ring]. transitivity (a * (1 / b * b)); [rewrite dl_div by auto; ring|ring]. Qed.

Lemma dl_sum_delta n k (g : nat -> F) : sum_n n (fun i => if (i =? k)%nat then g i else 0) = if (k <? n)%nat then g k else 0.
Proof.
  induction n as [|n IH]; cbn [sum_n]; [reflexivity|]. rewrite IH.
  destruct (Nat.eqb_spec n k) as [ -> |Hne].
  - rewrite Nat.ltb_irrefl, (proj2 (Nat.ltb_lt k (S k))) by lia. ring.
  - destruct (Nat.ltb_spec k n), (Nat.ltb_spec k (S n)); try lia; ring.
Qed.

(** ** interchanges *)
Lemma inter_inv k p i : interchange k p (interchange k p i) = i.
Proof. unfold interchange. destruct (Nat.eqb_spec i k); subst.
  - rewrite Nat.eqb_refl. destruct (Nat.eqb_spec p k); auto.
  - destruct (Nat.eqb_spec i p); subst.
    + now rewrite Nat.eqb_refl.
    + destruct (Nat.eqb_spec i k); try lia. destruct (Nat.eqb_spec i p); try lia; auto. Qed.
Lemma inter_lt n k p i : (k < n -> p < n -> i < n -> interchange k p i < n)%nat.
Proof. unfold interchange. intros. destruct (Nat.eqb i k); auto. destruct (Nat.eqb i p); auto. Qed.
Lemma sum_inter n k p (f : nat -> F) : (k < n)%nat -> (p < n)%nat -> sum_n n (fun i => f (interchange k p i)) = sum_n n f.
Proof.
  intros Hk Hp. destruct (Nat.eq_dec k p) as [ -> |Hne].
  { apply sum_ext. intros i Hi. unfold interchange. destruct (Nat.eqb_spec i p); congruence. }
  rewrite (@sum_ext F SF n _ (fun i => f i + ((if (i =? k)%nat then f p - f k else 0) + (if (i =? p)%nat then f k - f p else 0)))).
  - rewrite !(sum_add Hex), !dl_sum_delta. rewrite !(proj2 (Nat.ltb_lt _ _)) by auto. ring.
  - intros i Hi. unfold interchange. destruct (Nat.eqb_spec i k); subst.
    + destruct (Nat.eqb_spec k p); [lia|ring].
    + destruct (Nat.eqb_spec i p); subst; ring.
Qed.

Fixpoint unland (ipiv : list nat) (k i : nat) : nat :=
  match k with O => i | S k' => unland ipiv k' (interchange k' (nth k' ipiv 0 - 1) i) end%nat.
Lemma pivot_lt n ipiv k : pivots_ok n ipiv -> (k < n)%nat -> (nth k ipiv 0 - 1 < n)%nat.
Proof. intros (_ & H) Hk. specialize (H k Hk). lia. Qed.
Lemma landing_lt n ipiv k i : pivots_ok n ipiv -> (k <= n)%nat -> (i < n)%nat -> (landing ipiv k i < n)%nat.
Proof. intros H Hk Hi. induction k as [|k IH]; cbn [landing]; auto. apply inter_lt; [lia| |apply IH; lia]. apply pivot_lt; auto. Qed.
Lemma unland_lt n ipiv k i : pivots_ok n ipiv -> (k <= n)%nat -> (i < n)%nat -> (unland ipiv k i < n)%nat.
Proof. intros H Hk. revert i. induction k as [|k IH]; intros i Hi; cbn [unland]; auto. apply IH; [lia|]. apply inter_lt; auto. apply pivot_lt; auto. Qed.
Lemma unland_landing ipiv k i : unland ipiv k (landing ipiv k i) = i.
Proof. induction k as [|k IH]; cbn [landing unland]; auto. now rewrite inter_inv. Qed.
Lemma landing_unland ipiv k i : landing ipiv k (unland ipiv k i) = i.
Proof. revert i. induction k as [|k IH]; intros i; cbn [landing unland]; auto. now rewrite IH, inter_inv. Qed.
Lemma sum_landing n ipiv k (h : nat -> nat -> F) : pivots_ok n ipiv -> (k <= n)%nat ->
  sum_n n (fun i => h (landing ipiv k i) i) = sum_n n (fun i => h i (unland ipiv k i)).
Proof.
  intros H. revert h. induction k as [|k IH]; intros h Hk; cbn [landing unland]; auto.
  rewrite (IH (fun a b => h (interchange k (nth k ipiv 0%nat - 1) a) b)) by lia.
  rewrite <- (@sum_inter n k (nth k ipiv 0%nat - 1) (fun i => h i (unland ipiv k (interchange k (nth k ipiv 0%nat - 1) i)))); [| lia | apply pivot_lt; auto].
  apply sum_ext. intros i Hi. now rewrite inter_inv.
Qed.

(** ** triangular systems: T l j = 0 below the diagonal *)
Lemma sum_tail0 n k (f : nat -> F) : (k < n)%nat -> (forall l, (k < l < n)%nat -> f l = 0) -> sum_n n f = sum_n k f + f k.
Proof. intros Hk H. induction n as [|n IH]; [lia|]. cbn [sum_n]. destruct (Nat.eq_dec k n) as [ -> |]; auto.
  rewrite IH by (auto; try lia; intros; apply H; lia). rewrite (H n) by lia. ring. Qed.
Lemma sum_all0 n (f : nat -> F) : (forall l, (l < n)%nat -> f l = 0) -> sum_n n f = 0.
Proof. intros H. rewrite (@sum_ext F SF n f (fun _ => 0)) by auto. apply (sum_zero Hex). Qed.
Lemma tri_inj n (T : nat -> nat -> F) w : (forall l j, (j < l)%nat -> T l j = 0) -> (forall i, (i < n)%nat -> T i i <> 0) ->
  (forall j, (j < n)%nat -> sum_n n (fun l => w l * T l j) = 0) -> forall j, (j < n)%nat -> w j = 0.
Proof.
  intros HT Hd H j. induction j as [j IH] using lt_wf_ind. intros Hj. specialize (H j Hj).
  rewrite (@sum_tail0 n j) in H by (auto; intros l Hl; rewrite HT by lia; ring).
  rewrite (@sum_all0 j) in H by (intros l Hl; rewrite IH by lia; ring).
  apply dl_nzd with (T j j); auto. rewrite <- H. ring.
Qed.
Lemma tri_solve n (T : nat -> nat -> F) k (w0 r : nat -> F) : (forall l j, (j < l)%nat -> T l j = 0) ->
  (forall i, (k <= i < n)%nat -> T i i <> 0) ->
  exists w : nat -> F, (forall l, (l < k)%nat -> w l = w0 l) /\ forall j, (k <= j < n)%nat -> sum_n n (fun l => w l * T l j) = r j.
Proof.
  intros HT. induction n as [|n IH]; intros Hd; [exists w0; split; auto; lia|].
  destruct IH as (w & Hw & Hs); [intros; apply Hd; lia|].
  destruct (le_lt_dec k n) as [Hk|Hk].
  - exists (fun l => if (l =? n)%nat then (r n - sum_n n (fun l => w l * T l n)) / T n n else w l). split.
    + intros l Hl. destruct (Nat.eqb_spec l n); [lia|auto].
    + intros j Hj. cbn [sum_n]. rewrite Nat.eqb_refl.
      rewrite (@sum_ext F SF n _ (fun l => w l * T l j)) by (intros l Hl; destruct (Nat.eqb_spec l n); [lia|auto]).
      destruct (Nat.eq_dec j n) as [ -> |Hne].
      * rewrite dl_div by (apply Hd; lia). ring.
      * rewrite Hs by lia. rewrite (HT n j) by lia. ring.
  - exists w. split; auto. intros; lia.
Qed.
Lemma last_zero n (d : nat -> F) : (exists i, (i < n)%nat /\ d i = 0) ->
  exists k, (k < n)%nat /\ d k = 0 /\ forall j, (k < j < n)%nat -> d j <> 0.
Proof.
  induction n as [|n IH]; intros (i & Hi & Hz); [lia|]. destruct (dl_dec (d n) 0) as [E|E].
  - exists n. repeat split; auto; lia.
  - destruct IH as (k & Hk & Hz' & Hr). { exists i. split; auto. assert (i <> n) by congruence. lia. }
    exists k. repeat split; auto; try lia. intros j Hj. destruct (Nat.eq_dec j n); subst; auto. apply Hr; lia.
Qed.
Lemma zero_or_not n (y : nat -> F) : (forall i, (i < n)%nat -> y i = 0) \/ exists i, (i < n)%nat /\ y i <> 0.
Proof. induction n as [|n IH]; [left; intros; lia|]. destruct IH as [H|(i & Hi & H)].
  - destruct (dl_dec (y n) 0); [left; intros i Hi; destruct (Nat.eq_dec i n); subst; auto; apply H; lia|right; eauto].
  - right. exists i. split; auto; lia. Qed.
Lemma tri_null n (T : nat -> nat -> F) : 1 <> (0 : F) -> (forall l j, (j < l)%nat -> T l j = 0) -> (exists i, (i < n)%nat /\ T i i = 0) ->
  exists w : nat -> F, (exists l, (l < n)%nat /\ w l <> 0) /\ forall j, (j < n)%nat -> sum_n n (fun l => w l * T l j) = 0.
Proof.
  intros H10 HT H. destruct (@last_zero n (fun i => T i i) H) as (k & Hk & Hz & Hr).
  destruct (@tri_solve n T (S k) (fun l => if (l =? k)%nat then 1 else 0) (fun _ => 0) HT) as (w & Hw & Hs).
  { intros i Hi. apply Hr. lia. }
  exists w. split.
  - exists k. split; auto. rewrite Hw by lia. now rewrite Nat.eqb_refl.
  - intros j Hj. destruct (le_lt_dec (S k) j) as [Hc|Hc]; [apply Hs; lia|].
    rewrite (@sum_tail0 n j) by (auto; intros l Hl; rewrite HT by lia; ring).
    rewrite (@sum_all0 j) by (intros l Hl; rewrite Hw by lia; destruct (Nat.eqb_spec l k); [lia|ring]).
    rewrite Hw by lia. destruct (Nat.eqb_spec j k); subst; [rewrite Hz|]; ring.
Qed.

Lemma sum_rev n (f : nat -> F) : sum_n n (fun i => f (n - 1 - i)%nat) = sum_n n f.
Proof.
  assert (shift : forall n (g : nat -> F), sum_n (S n) g = g 0%nat + sum_n n (fun i => g (S i))).
  { intros k g. induction k as [|k IH]; [cbn [sum_n]; ring|]. change (sum_n (S (S k)) g) with (sum_n (S k) g + g (S k)). rewrite IH. cbn [sum_n]. ring. }
  revert f. induction n as [|n IH]; intros f; auto. rewrite shift.
  rewrite (@sum_ext F SF n _ (fun i => f (n - 1 - i)%nat)) by (intros i Hi; f_equal; lia). rewrite IH. cbn [sum_n].
  replace (S n - 1 - 0)%nat with n by lia. ring.
Qed.
(** the same for a matrix that is 0 above the diagonal, with 1 on it *)
Section Lower.
Variables (n : nat) (Lo : nat -> nat -> F).
Hypothesis HL : forall i l, (i < l)%nat -> Lo i l = 0.
Hypothesis HD : forall i, Lo i i = 1.
Hypothesis H10 : 1 <> (0 : F).
Let T l j := Lo (n - 1 - l)%nat (n - 1 - j)%nat.
Let T' l j := if (l <? n)%nat then if (j <? n)%nat then T l j else 0 else if (l =? j)%nat then 1 else 0.
Lemma low_up l j : (j < l)%nat -> T' l j = 0.
Proof. intros H. unfold T', T. destruct (Nat.ltb_spec l n), (Nat.ltb_spec j n); auto; try (apply HL; lia).
  all: destruct (Nat.eqb_spec l j); auto; lia. Qed.
Lemma low_sum (z : nat -> F) j : (j < n)%nat -> sum_n n (fun l => z (n - 1 - l)%nat * T' l (n - 1 - j)%nat) = sum_n n (fun i => z i * Lo i j).
Proof. intros Hj. rewrite <- (sum_rev n (fun i => z i * Lo i j)). apply sum_ext. intros l Hl. unfold T', T.
  rewrite !(proj2 (Nat.ltb_lt _ _)) by lia. now replace (n - 1 - (n - 1 - j))%nat with j by lia. Qed.
Lemma low_inj z : (forall l, (l < n)%nat -> sum_n n (fun i => z i * Lo i l) = 0) -> forall i, (i < n)%nat -> z i = 0.
Proof.
  intros H i Hi. pose proof (@tri_inj n T' (fun l => z (n - 1 - l)%nat) low_up) as G.
  specialize (fun A B => G A B (n - 1 - i)%nat). cbn beta in G. replace (n - 1 - (n - 1 - i))%nat with i in G by lia. apply G; [| |lia].
  - intros k Hk. unfold T', T. rewrite !(proj2 (Nat.ltb_lt _ _)) by lia. now rewrite HD.
  - intros j Hj. replace j with (n - 1 - (n - 1 - j))%nat by lia. rewrite low_sum by lia. apply H. lia.
Qed.
Lemma low_solve w : exists z : nat -> F, forall l, (l < n)%nat -> sum_n n (fun i => z i * Lo i l) = w l.
Proof.
  destruct (@tri_solve n T' 0 w (fun j => w (n - 1 - j)%nat) low_up) as (z & _ & Hz).
  { intros i Hi. unfold T', T. rewrite !(proj2 (Nat.ltb_lt _ _)) by lia. now rewrite HD. }
  exists (fun i => z (n - 1 - i)%nat). intros l Hl. rewrite <- (low_sum (fun i => z (n - 1 - i)%nat)) by auto.
  transitivity (w (n - 1 - (n - 1 - l))%nat); [|f_equal; lia].
  rewrite <- (Hz (n - 1 - l)%nat) by lia. apply sum_ext. intros i Hi. f_equal. f_equal. lia.
Qed.
End Lower.

(** ** P L U: the transposed homogeneous system has only the zero solution iff no U(i,i) is zero *)
Section Plu.
Variables (n : nat) (a : list F) (lda : nat) (p : list nat).
Hypothesis Hp : pivots_ok n p.
Let U := upper a lda.
Let Lo := unit_lower a lda.
Lemma U_low l j : (j < l)%nat -> U l j = 0.
Proof. unfold U, upper. intros H. destruct (Nat.leb_spec l j); auto; lia. Qed.
Lemma Lo_up i l : (i < l)%nat -> Lo i l = 0.
Proof. unfold Lo, unit_lower. intros H. destruct (Nat.ltb_spec l i); [lia|]. destruct (Nat.eqb_spec i l); [lia|auto]. Qed.
Lemma Lo_dg i : Lo i i = 1.
Proof. unfold Lo, unit_lower. now rewrite Nat.ltb_irrefl, Nat.eqb_refl. Qed.
Lemma plu_sum (y : nat -> F) j : sum_n n (fun i => plu n a lda p i j * y i) =
  sum_n n (fun l => sum_n n (fun i => y (unland p n i) * Lo i l) * U l j).
Proof.
  rewrite (@sum_ext F SF n (fun i => plu n a lda p i j * y i) (fun i => sum_n n (fun l => Lo (landing p n i) l * U l j * y i))).
  - rewrite (sum_swap Hex). apply sum_ext. intros l Hl.
    rewrite (@sum_landing n p n (fun b i => Lo b l * U l j * y i)) by auto.
    rewrite <- (sum_scal_r Hex). apply sum_ext. intros i Hi. ring.
  - intros i Hi. unfold plu. rewrite <- (sum_scal_r Hex). reflexivity.
Qed.
Lemma plu_inj y : (forall i, (i < n)%nat -> U i i <> 0) -> 1 <> (0 : F) ->
  (forall j, (j < n)%nat -> sum_n n (fun i => plu n a lda p i j * y i) = 0) -> forall i, (i < n)%nat -> y i = 0.
Proof.
  intros Hd H10 H i Hi. rewrite <- (unland_landing p n i).
  apply (@low_inj n Lo Lo_up Lo_dg H10 (fun i => y (unland p n i))); [|apply landing_lt; auto].
  apply (@tri_inj n U (fun l => sum_n n (fun i => y (unland p n i) * Lo i l))); auto using U_low.
  intros j Hj. rewrite <- plu_sum. now apply H.
Qed.
Lemma plu_null : (exists i, (i < n)%nat /\ U i i = 0) -> 1 <> (0 : F) ->
  exists y : nat -> F, (exists i, (i < n)%nat /\ y i <> 0) /\ forall j, (j < n)%nat -> sum_n n (fun i => plu n a lda p i j * y i) = 0.
Proof.
  intros Hd H10. destruct (@tri_null n U H10 U_low Hd) as (w & (l0 & Hl0 & Hw0) & Hw).
  destruct (@low_solve n Lo Lo_up Lo_dg H10 w) as (z & Hz).
  exists (fun i => z (landing p n i)). split.
  - destruct (@zero_or_not n (fun i => z (landing p n i))) as [H|H]; auto. exfalso. apply Hw0.
    rewrite <- Hz by auto. apply sum_all0. intros i Hi. rewrite <- (landing_unland p n i).
    rewrite (H (unland p n i)) by (apply unland_lt; auto). ring.
  - intros j Hj. rewrite plu_sum. rewrite <- (Hw j Hj). apply sum_ext. intros l Hl. f_equal. rewrite <- (Hz l Hl).
    apply sum_ext. intros i Hi. now rewrite landing_unland.
Qed.
End Plu.
End DirLin.
