(** * DirEig: the dense eigenvalue solvers DC. *)
From Coq Require Import ZArith Ring.
From Verif Require Import Base Scalar Spec SumFacts DenseModel Observe SolverModel SolverSpec LobSpec LobProof LobProof3 LobProof4 DirModel DirSpec DirLin DirProof.
Set Implicit Arguments.

Section DirEig.
Context {F : Type} {SF : Scalar F}.
Hypothesis Ho : ordered_field (F:=F).
Let Hex : exact SF := of_ring Ho.
Let Hrt : ring_theory (f0 (Scalar:=SF)) f1 fadd fmul fsub fopp eq := Hex.
Add Ring Fde : Hrt.
Local Open Scope F_scope.

Definition delta (i j : nat) : F := if (i =? j)%nat then 1 else 0.
Lemma dotp_sum_r n (u : nat -> F) k (c : nat -> F) (e : nat -> nat -> F) : dotp n u (fun i => sum_n k (fun s => c s * e s i)) = sum_n k (fun s => c s * dotp n u (e s)).
Proof. unfold dotp. rewrite (@sum_ext F SF n _ (fun i => sum_n k (fun s => u i * (c s * e s i)))) by (intros i Hi; now rewrite (sum_scal Hex)).
  rewrite (sum_swap Hex). apply sum_ext. intros s Hs. rewrite <- (sum_scal Hex). apply sum_ext. intros i Hi. ring. Qed.

(** vectors z_s with y_t . z_s = delta span F^n and the coefficients are y_s . x *)
Lemma biortho n (y z : nat -> nat -> F) x : (forall i j, (i < n)%nat -> (j < n)%nat -> dotp n (y i) (z j) = delta i j) ->
  forall i, (i < n)%nat -> x i = sum_n n (fun s => dotp n (y s) x * z s i).
Proof.
  intros H. assert (coef : forall c t, (t < n)%nat -> sum_n n (fun s => c s * dotp n (y t) (z s)) = c t).
  { intros c t Ht. rewrite (@sum_ext F SF n _ (fun s => if (s =? t)%nat then c s else 0)).
    - rewrite (dl_sum_delta Hex). now rewrite (proj2 (Nat.ltb_lt _ _) Ht).
    - intros s Hs. rewrite H by auto. unfold delta. rewrite (Nat.eqb_sym t s). destruct (s =? t)%nat; ring. }
  destruct (@dependent_fn F SF Ho n (S n) (fun s => if (s <? n)%nat then z s else x)) as (c & (s0 & Hs0 & Hc0) & HZ); [lia|].
  assert (HZ' : forall i, (i < n)%nat -> sum_n n (fun s => c s * z s i) + c n * x i = 0).
  { intros i Hi. rewrite <- (HZ i Hi). cbn [sum_n]. rewrite Nat.ltb_irrefl. f_equal. apply sum_ext. intros t Ht. now rewrite (proj2 (Nat.ltb_lt _ _) Ht). }
  assert (HC : forall t, (t < n)%nat -> c t + c n * dotp n (y t) x = 0).
  { intros t Ht. transitivity (dotp n (y t) (fun i => sum_n n (fun s => c s * z s i) + c n * x i)).
    - unfold dotp. rewrite (@sum_ext F SF n (fun i => y t i * (sum_n n (fun s => c s * z s i) + c n * x i)) (fun i => y t i * sum_n n (fun s => c s * z s i) + c n * (y t i * x i))) by (intros; ring).
      rewrite (sum_add Hex), (sum_scal Hex). f_equal. rewrite <- (coef c t Ht) at 1. symmetry. apply dotp_sum_r.
    - unfold dotp. apply (sum_all0 Hex). intros i Hi. rewrite HZ' by auto. ring. }
  assert (Hn : c n <> 0).
  { intro E. apply Hc0. destruct (Nat.eq_dec s0 n) as [ -> |]; auto. specialize (HC s0 ltac:(lia)). rewrite E in HC. rewrite <- HC. ring. }
  intros i Hi. assert (G : (x i - sum_n n (fun s => dotp n (y s) x * z s i)) * c n = 0).
  { transitivity (sum_n n (fun s => c s * z s i) + c n * x i - (sum_n n (fun s => c s * z s i) + c n * sum_n n (fun s => dotp n (y s) x * z s i))); [ring|].
    rewrite HZ' by auto. rewrite <- (sum_scal Hex), <- (sum_add Hex). rewrite (sum_all0 Hex); [ring|].
    intros s Hs. transitivity ((c s + c n * dotp n (y s) x) * z s i); [ring|]. rewrite HC by auto. ring. }
  apply (dl_nzd Hex (of_field Ho)) in G; auto.
  transitivity (x i - sum_n n (fun s => dotp n (y s) x * z s i) + sum_n n (fun s => dotp n (y s) x * z s i)); [ring|rewrite G; ring].
Qed.
Lemma biortho0 n (y z : nat -> nat -> F) x : (forall i j, (i < n)%nat -> (j < n)%nat -> dotp n (y i) (z j) = delta i j) ->
  (forall s, (s < n)%nat -> dotp n (y s) x = 0) -> forall i, (i < n)%nat -> x i = 0.
Proof. intros H H0 i Hi. rewrite (@biortho n y z x H i Hi). apply (sum_all0 Hex). intros s Hs. rewrite H0 by auto. ring. Qed.
Lemma cancel (a b c : F) : a * c = b * c -> c <> 0 -> a = b.
Proof. intros H Hc. assert (G : (a - b) * c = 0) by (transitivity (a * c - b * c); [ring|rewrite H; ring]).
  apply (dl_nzd Hex (of_field Ho)) in G; auto. transitivity (a - b + b); [ring|rewrite G; ring]. Qed.
(** if every y_s . x times lambda_s is mu times it, and x is not 0, mu is one of the lambda_s *)
Lemma among n (y z : nat -> nat -> F) x (lam : nat -> F) mu : (forall i j, (i < n)%nat -> (j < n)%nat -> dotp n (y i) (z j) = delta i j) ->
  (exists i, (i < n)%nat /\ x i <> 0) -> (forall s, (s < n)%nat -> lam s * dotp n (y s) x = mu * dotp n (y s) x) ->
  exists s, (s < n)%nat /\ lam s = mu.
Proof.
  intros H (i & Hi & Hx) He. destruct (@zero_or_not F SF (of_field Ho) n (fun s => dotp n (y s) x)) as [G|(s & Hs & G)].
  - exfalso. apply Hx. exact (@biortho0 n y z x H G i Hi).
  - exists s. split; auto. apply cancel with (dotp n (y s) x); auto.
Qed.
Lemma lower_symmetric n (M : nat -> nat -> F) : symmetric n (from_lower M).
Proof. intros i j Hi Hj. apply lower_sym. Qed.
Lemma mv_vec_ext n (M : nat -> nat -> F) u v i : (forall j, (j < n)%nat -> u j = v j) -> mv n M u i = mv n M v i.
Proof. intros H. unfold mv. apply sum_ext. intros j Hj. now rewrite H. Qed.
Lemma dotp_scal_l n a (u v : nat -> F) : dotp n (fun i => a * u i) v = a * dotp n u v.
Proof. unfold dotp. rewrite <- (sum_scal Hex). apply sum_ext. intros. ring. Qed.
Lemma dotp_scal_r n a (u v : nat -> F) : dotp n u (fun i => a * v i) = a * dotp n u v.
Proof. unfold dotp. rewrite <- (sum_scal Hex). apply sum_ext. intros. ring. Qed.

Lemma mv_sub n (M : nat -> nat -> F) (u v : nat -> F) c i : mv n M (fun j => u j - c * v j) i = mv n M u i - c * mv n M v i.
Proof. unfold mv. rewrite <- (sum_scal Hex), <- (sum_sub Hex). apply sum_ext. intros. ring. Qed.

(** ** standard problem *)
Section Std.
Variables (n : nat) (S : nat -> nat -> F) (z : nat -> nat -> F) (lam : nat -> F).
Hypothesis HS : symmetric n S.
Hypothesis Hz : forall i j, (i < n)%nat -> (j < n)%nat -> dotp n (z i) (z j) = delta i j.
Hypothesis He : forall i r, (i < n)%nat -> (r < n)%nat -> mv n S (z i) r = lam i * z i r.
Lemma std_all mu v : (exists i, (i < n)%nat /\ v i <> 0) -> (forall r, (r < n)%nat -> mv n S v r = mu * v r) -> exists s, (s < n)%nat /\ lam s = mu.
Proof.
  intros Hv Hm. apply (@among n z z v lam mu Hz Hv). intros s Hs. rewrite <- dotp_scal_l, <- dotp_scal_r.
  transitivity (dotp n (mv n S (z s)) v); [apply dotp_ext'; auto; intros; now rewrite He|].
  rewrite (sym_swap Hex HS). apply dotp_ext'; auto.
Qed.
End Std.

(** ** generalized problem *)
Section Gen.
Variables (n : nat) (SA SB : nat -> nat -> F) (z : nat -> nat -> F) (lam : nat -> F) (itype : Z).
Hypothesis HA : symmetric n SA.
Hypothesis HB : symmetric n SB.
Hypothesis Hn : gen_normal itype n SB z.
Hypothesis He : forall i r, (i < n)%nat -> (r < n)%nat -> gen_equation itype n SA SB (lam i) (z i) r.
Hypothesis Hit : itype = 1%Z \/ itype = 2%Z \/ itype = 3%Z.
Lemma form_pd (e : nat -> nat -> F) : (forall i j, (i < n)%nat -> (j < n)%nat -> dotp n (e i) (mv n SB (e j)) = delta i j) -> pos_def n SB.
Proof.
  intros H v (i & Hi & Hv).
  assert (H' : forall i j, (i < n)%nat -> (j < n)%nat -> dotp n (mv n SB (e i)) (e j) = delta i j).
  { intros a b Ha Hb. rewrite (sym_swap Hex HB). auto. }
  set (c := fun s => dotp n (mv n SB (e s)) v).
  assert (Ev : forall i, (i < n)%nat -> v i = sum_n n (fun s => c s * e s i)) by (intros j Hj; exact (@biortho n (fun s => mv n SB (e s)) e v H' j Hj)).
  rewrite (@dotp_ext' F SF n v (mv n SB v) (fun i => sum_n n (fun s => c s * e s i)) (mv n SB (fun i => sum_n n (fun s => c s * e s i)))); auto.
  2:{ intros j Hj. apply mv_vec_ext. auto. }
  rewrite (@form_diag F SF Ho n SB n e (fun _ => 1) c H).
  destruct (@zero_or_not F SF (of_field Ho) n c) as [G|(s & Hs & G)].
  - exfalso. apply Hv. rewrite Ev by auto. apply (sum_all0 Hex). intros s Hs. rewrite G by auto. ring.
  - rewrite (@sum_ext F SF n _ (fun i => c i * c i)) by (intros; ring). exact (@sumF_pos F SF Ho n c s Hs G).
Qed.
Lemma gen_pd : pos_def n SB.
Proof.
  destruct (Z.eq_dec itype 3) as [E|E]; unfold gen_normal in Hn.
  - rewrite E in Hn. cbn [Z.eqb Pos.eqb] in Hn. destruct Hn as (y & Hy). apply form_pd with y. intros i j Hi Hj.
    rewrite (@dotp_ext' F SF n (y i) (mv n SB (y j)) (y i) (z j)); auto.
    + rewrite (dotp_comm' Hex). rewrite (proj2 (Hy j i Hj Hi)). unfold delta. now rewrite Nat.eqb_sym.
    + intros k Hk. now apply Hy.
  - destruct (Z.eqb_spec itype 3); [contradiction|]. now apply form_pd with z.
Qed.
Lemma pd_inj v : pos_def n SB -> (forall r, (r < n)%nat -> mv n SB v r = 0) -> forall i, (i < n)%nat -> v i = 0.
Proof.
  intros P H i Hi. destruct (@zero_or_not F SF (of_field Ho) n v) as [G|G]; auto. specialize (P v G).
  unfold dotp in P. rewrite (sum_all0 Hex) in P by (intros k Hk; rewrite H by auto; ring). now rewrite (of_irr Ho) in P.
Qed.
Lemma gen_all mu v : (exists i, (i < n)%nat /\ v i <> 0) -> (forall r, (r < n)%nat -> gen_equation itype n SA SB mu v r) -> exists s, (s < n)%nat /\ lam s = mu.
Proof.
  intros Hv Hm. pose proof gen_pd as PD. unfold gen_normal in Hn. destruct (Z.eqb_spec itype 3) as [E3|E3].
  - destruct Hn as (y & Hy). apply (@among n y z v lam mu); auto.
    { intros i j Hi Hj. rewrite (dotp_comm' Hex). rewrite (proj2 (Hy j i Hj Hi)). unfold delta. now rewrite Nat.eqb_sym. }
    intros s Hs. rewrite E3 in *. cbn [gen_equation] in *.
    assert (Hzy : forall r, (r < n)%nat -> mv n SA (z s) r = lam s * y s r).
    { intros r Hr. assert (G : mv n SA (z s) r - lam s * y s r = 0).
      { apply (pd_inj (fun r => mv n SA (z s) r - lam s * y s r) PD); auto. intros q Hq.
        transitivity (mv n SB (mv n SA (z s)) q - lam s * mv n SB (y s) q).
        - apply mv_sub.
        - rewrite He by auto. rewrite (proj1 (Hy q s Hq Hs)). ring. }
      transitivity (mv n SA (z s) r - lam s * y s r + lam s * y s r); [ring|rewrite G; ring]. }
    rewrite <- dotp_scal_l, <- dotp_scal_r. transitivity (dotp n (mv n SA (z s)) v); [apply dotp_ext'; auto; intros; now rewrite Hzy|].
    rewrite (sym_swap Hex HA). transitivity (dotp n (mv n SB (y s)) (mv n SA v)); [apply dotp_ext'; auto; intros k Hk; symmetry; now apply Hy|].
    rewrite (sym_swap Hex HB). apply dotp_ext'; auto.
  - apply (@among n (fun s => mv n SB (z s)) z v lam mu); auto.
    { intros i j Hi Hj. rewrite (sym_swap Hex HB). now apply Hn. }
    intros s Hs. destruct Hit as [E|[E|E]]; [| |contradiction]; rewrite E in *; cbn [gen_equation] in *.
    + rewrite <- dotp_scal_l. transitivity (dotp n (mv n SA (z s)) v); [apply dotp_ext'; auto; intros; now rewrite He|].
      rewrite (sym_swap Hex HA). rewrite (sym_swap Hex HB), <- dotp_scal_r. apply dotp_ext'; auto.
    + transitivity (dotp n (mv n SA (mv n SB (z s))) (mv n SB v)).
      * rewrite (sym_swap Hex HB), <- dotp_scal_l. apply dotp_ext'; auto. intros; now rewrite He.
      * rewrite (sym_swap Hex HA). rewrite <- dotp_scal_r. apply dotp_ext'; auto.
Qed.
End Gen.

(** ** the solvers *)
Lemma dc_core L n A l : (1 <= n)%nat -> square_ok n A -> (n <= length l)%nat ->
  syevd_doc n (d_val A) l (l_syevd L true n (d_val A) n l) ->
  exists code A' l', dc_solve L 0 A l = Ok (code, A', l') /\ square_ok n A' /\ length l' = length l /\
    (code = SUCCESS \/ code = BREAKDOWN) /\
    (code = SUCCESS ->
       (forall i, (n <= i)%nat -> fn l' i = fn l i) /\
       (forall i j, (i < j < n)%nat -> fltb (fn l' j) (fn l' i) = false) /\
       (forall i r, (i < n)%nat -> (r < n)%nat -> mv n (from_lower (dense_fn A)) (dense_fn A' i) r = fn l' i * dense_fn A' i r) /\
       (forall i j, (i < n)%nat -> (j < n)%nat -> dotp n (dense_fn A' i) (dense_fn A' j) = delta i j)).
Proof.
  intros Hn HA Hl HD. pose proof (square_len HA) as HL. pose proof HA as ((Q1 & Q2 & Q3) & Q4 & Q5 & Q6).
  unfold dc_solve, syevd. cbn [Nat.eqb]. rewrite Q5. rewrite (proj2 (Nat.leb_le _ _)) by lia. rewrite fits_square by auto.
  rewrite (proj2 (Nat.leb_le _ _)) by auto. cbn [andb bind].
  destruct (l_syevd L true n (d_val A) n l) as ((a, w), info). destruct HD as (R1 & R2 & R3 & R4). cbn [bind].
  assert (HA' : square_ok n (d_set_val A a)) by (repeat split; cbn; auto; lia).
  do 3 eexists. split; [reflexivity|]. split; auto. split; auto.
  split. { destruct (Z.ltb_spec 0 info); auto. destruct (Z.ltb_spec info 0); auto. lia. }
  intros Hc. assert (Hi : info = 0%Z). { destruct (Z.ltb_spec 0 info); [discriminate|]. lia. }
  destruct (R4 Hi) as (S1 & S2 & S3 & S4). split; auto. split; auto. split.
  - intros i r Hi' Hr. rewrite (dense_colmaj r i HA'). cbn [d_val d_set_val]. rewrite <- S3 by auto. unfold mv. apply sum_ext. intros j Hj.
    rewrite (dense_colmaj j i HA'). cbn [d_val d_set_val]. f_equal. symmetry. now apply upper_lower.
  - intros i j Hi' Hj. unfold delta. rewrite <- S4 by auto. apply dotp_ext'; intros s Hs; now rewrite (dense_colmaj s _ HA').
Qed.
Lemma gdc_core L n A B l it : (1 <= n)%nat -> square_ok n A -> square_ok n B -> (n <= length l)%nat -> it = 1%Z \/ it = 2%Z \/ it = 3%Z ->
  sygvd_doc it n (d_val A) (d_val B) l (l_sygvd L it true n (d_val A) n (d_val B) n l) ->
  exists code A' B' l', gdc_solve L 0 A B l it = Ok (code, A', B', l') /\ square_ok n A' /\ square_ok n B' /\ length l' = length l /\
    (code = SUCCESS \/ code = BREAKDOWN) /\
    (code = SUCCESS ->
       (forall i, (n <= i)%nat -> fn l' i = fn l i) /\
       (forall i j, (i < j < n)%nat -> fltb (fn l' j) (fn l' i) = false) /\
       (forall i r, (i < n)%nat -> (r < n)%nat -> gen_equation it n (from_lower (dense_fn A)) (from_lower (dense_fn B)) (fn l' i) (dense_fn A' i) r) /\
       gen_normal it n (from_lower (dense_fn B)) (dense_fn A')).
Proof.
  intros Hn HA HB Hl Hit HD. pose proof (square_len HA) as HL. pose proof (square_len HB) as HLB.
  pose proof HA as ((Q1 & Q2 & Q3) & Q4 & Q5 & Q6). pose proof HB as ((P1 & P2 & P3) & P4 & P5 & P6).
  unfold gdc_solve, sygvd. cbn [Nat.eqb]. rewrite Q5. rewrite (proj2 (Nat.leb_le _ n)) by lia. rewrite !fits_square by auto.
  rewrite (proj2 (Nat.leb_le _ _)) by auto.
  replace ((1 <=? it)%Z && (it <=? 3)%Z) with true by (destruct Hit as [ -> |[ -> | -> ]]; reflexivity). cbn [andb bind].
  destruct (l_sygvd L it true n (d_val A) n (d_val B) n l) as (((a, b), w), info). destruct HD as (R1 & R1' & R2 & R3 & R4). cbn [bind].
  assert (HA' : square_ok n (d_set_val A a)) by (repeat split; cbn; auto; lia).
  assert (HB' : square_ok n (d_set_val B b)) by (repeat split; cbn; auto; lia).
  do 4 eexists. split; [reflexivity|]. split; auto. split; auto. split; auto.
  split. { destruct (Z.ltb_spec 0 info); auto. destruct (Z.ltb_spec info 0); auto. lia. }
  intros Hc. assert (Hi : info = 0%Z). { destruct (Z.ltb_spec 0 info); [discriminate|]. lia. }
  destruct (R4 Hi) as (S1 & S2 & S3 & S4). split; auto. split; auto.
  assert (EA : forall v r, mv n (from_upper (d_val A) n) v r = mv n (from_lower (dense_fn A)) v r) by (intros; apply mv_ext2; intros; now apply upper_lower).
  assert (EB : forall v r, mv n (from_upper (d_val B) n) v r = mv n (from_lower (dense_fn B)) v r) by (intros; apply mv_ext2; intros; now apply upper_lower).
  assert (EZ : forall i s, colmaj a n s i = dense_fn (d_set_val A a) i s) by (intros; now rewrite (dense_colmaj s i HA')).
  split.
  - intros i r Hi' Hr. specialize (S3 i r Hi' Hr).
    destruct Hit as [E|[E|E]]; subst it; cbn [gen_equation] in *.
    + rewrite EA, EB in S3. rewrite (@mv_vec_ext n _ (dense_fn (d_set_val A a) i) (fun s => colmaj a n s i)) by (intros; now rewrite EZ).
      rewrite (@mv_vec_ext n _ (dense_fn (d_set_val A a) i) (fun s => colmaj a n s i)) by (intros; now rewrite EZ). exact S3.
    + rewrite EA in S3. rewrite <- EZ, <- S3. apply mv_vec_ext. intros j Hj. rewrite EB. apply mv_vec_ext. intros; now rewrite EZ.
    + rewrite EB in S3. rewrite <- EZ, <- S3. apply mv_vec_ext. intros j Hj. rewrite EA. apply mv_vec_ext. intros; now rewrite EZ.
  - unfold gen_normal in *. destruct (it =? 3)%Z.
    + destruct S4 as (y & Hy). exists y. intros i j Hi' Hj. destruct (Hy i j Hi' Hj) as (G1 & G2). rewrite EB in G1. rewrite <- EZ. split; [exact G1|].
      rewrite <- G2. apply dotp_ext'; [intros; now rewrite EZ|reflexivity].
    + intros i j Hi' Hj. rewrite <- (S4 i j Hi' Hj). apply dotp_ext'; [intros; now rewrite EZ|]. intros s Hs. rewrite EB. apply mv_vec_ext. intros; now rewrite EZ.
Qed.
End DirEig.
