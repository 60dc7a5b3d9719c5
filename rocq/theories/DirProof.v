(** * DirProof: LU and Cholesky on dense matrices. *)
From Coq Require Import ZArith Ring.
From Verif Require Import Base Scalar Spec SumFacts DenseModel Observe SolverModel SolverSpec DirModel DirSpec DirLin.
Set Implicit Arguments.

Section DirProof.
Context {F : Type} {SF : Scalar F}.
Hypothesis Hex : exact SF.
Hypothesis Hf : field_arith (F:=F).
Hypothesis H10 : 1%F <> (0%F : F).
Let Hrt : ring_theory (f0 (Scalar:=SF)) f1 fadd fmul fsub fopp eq := Hex.
Add Ring Fdp : Hrt.
Local Open Scope F_scope.

Lemma square_len n (A : dense F) : square_ok n A -> (n * n <= length (d_val A))%nat.
Proof. intros ((H1 & H2 & H3) & H4 & H5 & H6). rewrite H5, H6 in H2. lia. Qed.
Lemma dense_colmaj n (A : dense F) i j : square_ok n A -> dense_fn A j i = colmaj (d_val A) n i j.
Proof. intros (_ & H4 & _ & H6). unfold dense_fn, colmaj, fn. rewrite H4, H6. f_equal. lia. Qed.
Lemma fits_square n len : (n * n <= len)%nat -> fits n n n len = true.
Proof. intros H. unfold fits. destruct n; auto. cbn [Nat.eqb orb]. apply Nat.leb_le. nia. Qed.
Lemma mv_lower n M i x : (forall i j, (i < n)%nat -> (j < n)%nat -> M i j = M j i) -> (i < n)%nat -> mv n (from_lower M) x i = mv n M x i.
Proof. intros H Hi. unfold mv. apply sum_ext. intros j Hj. f_equal. unfold from_lower.
  destruct (le_lt_dec i j); [rewrite Nat.max_r, Nat.min_l by lia; auto|rewrite Nat.max_l, Nat.min_r by lia; auto]. Qed.
Lemma mv_ext2 n (M M' : nat -> nat -> F) x i : (forall j, (j < n)%nat -> M i j = M' i j) -> mv n M x i = mv n M' x i.
Proof. intros H. unfold mv. apply sum_ext. intros j Hj. now rewrite H. Qed.

Lemma nonzero_or n (d : nat -> F) : (forall i, (i < n)%nat -> d i <> 0) \/ exists i, (i < n)%nat /\ d i = 0.
Proof. induction n as [|k IH]; [left; intros; lia|]. destruct IH as [H|(i & Hi & H)].
  - destruct (dl_dec Hf (d k) 0) as [D|D]; [right; exists k; split; auto; lia|left]. intros i Hi. destruct (Nat.eq_dec i k); subst; auto. apply H; lia.
  - right. exists i. split; auto; lia. Qed.

Lemma solves_unique n (M : nat -> nat -> F) (b y x : nat -> F) : ~ singular n M -> solves n M y b -> solves n M x b -> forall i, (i < n)%nat -> y i = x i.
Proof.
  intros NS Hy Hx i Hi. destruct (dl_dec Hf (y i) (x i)) as [|Hne]; auto. exfalso. apply NS. exists (fun k => y k - x k). split.
  - exists i. split; auto. intros Z0. apply Hne. transitivity (y i - x i + x i); [ring|rewrite Z0; ring].
  - intros k Hk. transitivity (mv n M y k - mv n M x k); [|rewrite (Hy k Hk), (Hx k Hk); ring].
    unfold mv. rewrite <- (sum_sub Hex). apply sum_ext. intros. ring.
Qed.

(** ** LU *)
Section Lu.
Variable L : lapack F.
Hypothesis Hrf : getrf_doc L.
Hypothesis Hrs : getrs_doc L.

Lemma lu_core lib n (A : dense F) x : (1 <= n)%nat -> square_ok n A -> (n <= length x)%nat ->
  exists code A' x', lu_solve_in L lib A x = Ok (code, A', x') /\
    length x' = length x /\ (forall i, (n <= i)%nat -> fn x' i = fn x i) /\
    (code = SUCCESS \/ code = BREAKDOWN) /\
    (code = SUCCESS -> solves n (dense_fn A) (fn x') (fn x) /\ ~ singular n (dense_fn A)) /\
    (code = BREAKDOWN -> singular n (dense_fn A)) /\
    square_ok n A' /\
    exists p, pivots_ok n p /\ forall i j, (i < n)%nat -> (j < n)%nat -> plu n (d_val A') n p j i = dense_fn A i j.
Proof.
  intros Hn HA Hx. pose proof (square_len HA) as Hl. pose proof HA as ((Q1 & Q2 & Q3) & Q4 & Q5 & Q6).
  unfold lu_solve_in, getrf, getrs, lu_lib. cbn [Nat.eqb]. rewrite Q5, Q6, Nat.min_id.
  rewrite (proj2 (Nat.leb_le _ _)) by lia. rewrite fits_square, repeat_length, Nat.leb_refl by auto. cbn [andb bind].
  destruct (l_getrf L n n (d_val A) n (repeat 0%nat n)) as ((a, p), info) eqn:E1.
  destruct (@Hrf _ _ _ _ _ _ Hn Hl (repeat_length _ _) E1) as (R1 & R2 & R3 & R4 & R5). cbn [bind d_set_val d_row d_col d_val].
  rewrite Q5, Q6. rewrite (proj2 (Nat.leb_le _ _)) by lia. rewrite fits_square by lia. destruct R2 as (R2a & R2b).
  rewrite (proj2 (Nat.leb_le n (length p))), (proj2 (Nat.leb_le n (length x))) by lia. cbn [andb bind].
  destruct (l_getrs L true n a n p x) as (x', info2) eqn:E2.
  destruct (@Hrs n a p x x' info2 Hn ltac:(lia) (conj R2a R2b) Hx E2) as (S1 & S2 & S3 & S4). subst info2. cbn [Z.eqb].
  do 3 eexists. split; [reflexivity|]. split; [auto|]. split; [auto|]. split; [destruct (info =? 0)%Z; auto|].
  assert (E : forall y i, (i < n)%nat -> mv n (dense_fn A) y i = sum_n n (fun j => plu n a n p j i * y j)).
  { intros y i Hi. unfold mv. apply sum_ext. intros j Hj. rewrite R4 by auto. now rewrite (dense_colmaj j i HA). }
  repeat split.
  - intros i Hi. destruct (Z.eqb_spec info 0) as [Hi0|]; [|discriminate].
    specialize (S4 (proj1 R5 Hi0) i Hi). rewrite E by auto. exact S4.
  - destruct (Z.eqb_spec info 0) as [Hi0|]; [|discriminate]. intros (y & (i & Hi & Hy) & Hs).
    apply Hy. apply (@plu_inj F SF Hex Hf n a n p (conj R2a R2b) y); auto; [now apply R5|].
    intros j Hj. rewrite <- E by auto. now apply Hs.
  - destruct (Z.eqb_spec info 0) as [Hi0|Hi0]; [discriminate|]. intros _.
    assert (Hz : exists i, (i < n)%nat /\ upper a n i i = 0).
    { destruct (@nonzero_or n (fun i => upper a n i i)) as [G|G]; auto. exfalso. apply Hi0. now apply R5. }
    destruct (@plu_null F SF Hex Hf n a n p (conj R2a R2b) Hz H10) as (y & Hy & Hs). exists y. split; auto.
    intros i Hi. rewrite E by auto. now apply Hs.
  - cbn. lia.
  - cbn. auto.
  - cbn. lia.
  - auto.
  - auto.
  - auto.
  - exists p. split; [split; auto|]. intros i j Hi Hj. cbn [d_val d_set_val]. rewrite R4 by auto. symmetry. now apply dense_colmaj.
Qed.
Lemma lu_same lib A x b : length x = length b -> lu_solve L lib A x b = lu_solve_in L lib A b.
Proof. intros H. unfold lu_solve, lu_solve_in, v_copy, leneq. rewrite H. unfold lu_lib. cbn [Nat.eqb]. rewrite Nat.eqb_refl. reflexivity. Qed.
End Lu.

(** ** Cholesky *)
Section Chol.
Variable L : lapack F.
Hypothesis Hrf : sytrf_doc L.
Hypothesis Hrs : sytrs_doc L.
Lemma upper_lower n (A : dense F) i j : square_ok n A -> from_upper (d_val A) n i j = from_lower (dense_fn A) i j.
Proof. intros H. unfold from_upper, from_lower. now rewrite (dense_colmaj (Nat.min i j) (Nat.max i j) H). Qed.
Lemma lower_sym (M : nat -> nat -> F) i j : from_lower M i j = from_lower M j i.
Proof. unfold from_lower. now rewrite Nat.max_comm, Nat.min_comm. Qed.
Lemma chol_core lib n (A : dense F) x : (1 <= n)%nat -> square_ok n A -> (n <= length x)%nat ->
  exists code A' x', chol_solve_in L lib A x = Ok (code, A', x') /\
    length x' = length x /\ (forall i, (n <= i)%nat -> fn x' i = fn x i) /\
    (code = SUCCESS \/ code = BREAKDOWN) /\
    (code = SUCCESS -> solves n (from_lower (dense_fn A)) (fn x') (fn x) /\ ~ singular n (from_lower (dense_fn A))) /\
    (code = BREAKDOWN -> singular n (from_lower (dense_fn A))) /\
    square_ok n A' /\ (forall i j, (i < j < n)%nat -> dense_fn A' i j = dense_fn A i j).
Proof.
  intros Hn HA Hx. pose proof (square_len HA) as Hl. pose proof HA as ((Q1 & Q2 & Q3) & Q4 & Q5 & Q6).
  unfold chol_solve_in, sytrf, sytrs, lu_lib. cbn [Nat.eqb]. rewrite Q5, Q6, Nat.min_id.
  rewrite (proj2 (Nat.leb_le _ _)) by lia. rewrite fits_square, repeat_length, Nat.leb_refl by auto. cbn [andb bind].
  destruct (l_sytrf L true n (d_val A) n (repeat 0%nat n)) as ((a, p), info) eqn:E1.
  destruct (@Hrf _ _ _ _ _ _ Hn Hl (repeat_length _ _) E1) as (R1 & R2 & R3 & R4 & R4' & R5 & R6). cbn [bind d_set_val d_row d_col d_val].
  rewrite Q5, Q6. rewrite (proj2 (Nat.leb_le _ _)) by lia. rewrite fits_square by lia.
  rewrite (proj2 (Nat.leb_le n (length p))), (proj2 (Nat.leb_le n (length x))) by lia. cbn [andb bind].
  destruct (l_sytrs L true n a n p x) as (x', info2) eqn:E2.
  destruct (@Hrs n a p x x' info2 Hn ltac:(lia) R2 Hx E2) as (S1 & S2 & S3). subst info2. cbn [Z.eqb].
  do 3 eexists. split; [reflexivity|]. split; [auto|]. split; [auto|]. split; [destruct (info =? 0)%Z; auto|].
  assert (E : forall y i, mv n (from_lower (dense_fn A)) y i = mv n (from_upper (d_val A) n) y i).
  { intros y i. apply mv_ext2. intros j Hj. symmetry. now apply upper_lower. }
  assert (HA' : square_ok n (d_set_val A a)).
  { repeat split; cbn; auto; lia. }
  repeat split; try apply HA'.
  - intros i Hi. destruct (Z.eqb_spec info 0) as [Hi0|]; [|discriminate]. rewrite E. exact (R6 Hi0 x x' 0%Z Hx E2 i Hi).
  - destruct (Z.eqb_spec info 0) as [Hi0|]; [|discriminate]. intros (y & (k & Hk & Hy) & Hs). apply Hy.
    set (S := from_lower (dense_fn A)) in *. set (e := map (fun i => if (i =? k)%nat then 1 else 0) (seq 0 n)).
    assert (He : forall i, (i < n)%nat -> fn e i = if (i =? k)%nat then 1 else 0) by (intros i Hi; unfold fn, e; now rewrite nth_map_seq).
    destruct (l_sytrs L true n a n p e) as (z, i3) eqn:E3.
    pose proof (R6 Hi0 e z i3 ltac:(unfold e; rewrite map_length, seq_length; lia) E3) as G.
    transitivity (sum_n n (fun i => y i * mv n S (fn z) i)).
    + rewrite (@sum_ext F SF n _ (fun i => if (i =? k)%nat then y i else 0)).
      * rewrite (dl_sum_delta Hex). now rewrite (proj2 (Nat.ltb_lt _ _) Hk).
      * intros i Hi. unfold S. rewrite E. rewrite G by auto. rewrite He by auto. destruct (i =? k)%nat; ring.
    + transitivity (sum_n n (fun j => mv n S y j * fn z j)).
      * unfold mv. rewrite (@sum_ext F SF n _ (fun i => sum_n n (fun j => y i * (S i j * fn z j)))) by (intros i Hi; now rewrite (sum_scal Hex)).
        rewrite (sum_swap Hex). apply sum_ext. intros j Hj. rewrite <- (sum_scal_r Hex). apply sum_ext. intros i Hi.
        unfold S. rewrite (lower_sym (dense_fn A) i j). ring.
      * apply (sum_all0 Hex). intros j Hj. rewrite (Hs j Hj). ring.
  - destruct (Z.eqb_spec info 0) as [Hi0|Hi0]; [discriminate|]. intros _.
    destruct R5 as (y & Hy & Hs); [lia|]. exists y. split; auto. intros i Hi. rewrite E. now apply Hs.
  - intros i j Hij. rewrite (dense_colmaj j i HA'), (dense_colmaj j i HA). cbn [d_val d_set_val]. apply R4. lia.
Qed.
Lemma chol_same lib A x b : length x = length b -> chol_solve L lib A x b = chol_solve_in L lib A b.
Proof. intros H. unfold chol_solve, chol_solve_in, v_copy, leneq. rewrite H. unfold lu_lib. cbn [Nat.eqb]. rewrite Nat.eqb_refl. reflexivity. Qed.
End Chol.
End DirProof.
