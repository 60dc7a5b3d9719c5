(** * PropertiesDir: C82-C89, the dense direct solvers LU, Cholesky and DC.

    The hypotheses [..._doc] and [..._illegal] (DirSpec.v) are what LAPACK documents; DirRef.v has a library that meets the
    ones for LU and Cholesky for every order and matrix. *)
From Coq Require Import ZArith QArith Qcanon.
From Verif Require Import Base Scalar Spec SumFacts DenseModel Observe SolverModel SolverSpec LobSpec LobProof3 LobWitness DirModel DirSpec DirLin DirProof DirEig DirRef.
Set Implicit Arguments.
Close Scope Qc_scope. Close Scope Q_scope.
Local Open Scope nat_scope.

Section General.
Context {F : Type} {SF : Scalar F}.
Hypothesis Hex : exact SF.
Hypothesis Hf : field_arith (F:=F).
Hypothesis H10 : 1%F <> (0%F : F).
Variable L : lapack F.

(** ** C82: LU solves every non-singular square system, and says so when the matrix is singular *)
Theorem C82_lu : getrf_doc L -> getrs_doc L ->
  forall lib n A x b, 1 <= n -> square_ok n A -> length x = n -> length b = n ->
  exists code A' x', lu_solve L lib A x b = Ok (code, A', x') /\ length x' = n /\
    (code = SUCCESS <-> ~ singular n (dense_fn A)) /\ (code = BREAKDOWN <-> singular n (dense_fn A)) /\
    (code = SUCCESS -> solves n (dense_fn A) (fn x') (fn b) /\
       forall y, solves n (dense_fn A) y (fn b) -> forall i, i < n -> y i = fn x' i).
Proof.
  intros Hrf Hrs lib n A x b Hn HA Hx Hb. rewrite lu_same by congruence.
  destruct (@lu_core F SF Hex Hf H10 L Hrf Hrs lib n A b Hn HA ltac:(lia)) as (code & A' & x' & E & Hl & _ & Hc & Hs & Hd & _).
  exists code, A', x'. split; auto. split; [congruence|].
  assert (SUCCESS <> BREAKDOWN) by discriminate.
  split; [|split].
  - split; [intros C; now apply Hs|]. intros NS. destruct Hc as [C|C]; auto. now apply Hd in C.
  - split; [auto|]. intros SG. destruct Hc as [C|C]; auto. now apply Hs in C.
  - intros C. destruct (Hs C) as (S1 & S2). split; auto. intros y Hy i Hi.
    exact (@solves_unique F SF Hex Hf n (dense_fn A) (fn b) y (fn x') S2 Hy S1 i Hi).
Qed.
(** the two-argument form: the same on the first n elements; a longer vector keeps its other elements *)
Theorem C82_lu_in_place : getrf_doc L -> getrs_doc L ->
  forall lib n A xb, 1 <= n -> square_ok n A -> n <= length xb ->
  exists code A' x', lu_solve_in L lib A xb = Ok (code, A', x') /\ length x' = length xb /\ (forall i, n <= i -> fn x' i = fn xb i) /\
    (code = SUCCESS <-> ~ singular n (dense_fn A)) /\ (code = BREAKDOWN <-> singular n (dense_fn A)) /\
    (code = SUCCESS -> solves n (dense_fn A) (fn x') (fn xb)).
Proof.
  intros Hrf Hrs lib n A x Hn HA Hx.
  destruct (@lu_core F SF Hex Hf H10 L Hrf Hrs lib n A x Hn HA Hx) as (code & A' & x' & E & Hl & Ht & Hc & Hs & Hd & _).
  exists code, A', x'. split; auto. split; auto. split; auto. assert (SUCCESS <> BREAKDOWN) by discriminate.
  split; [|split].
  - split; [intros C; now apply Hs|]. intros NS. destruct Hc as [C|C]; auto. now apply Hd in C.
  - split; [auto|]. intros SG. destruct Hc as [C|C]; auto. now apply Hs in C.
  - intros C. now apply Hs.
Qed.

(** ** C83: sizes that do not fit *)
(** a vector shorter than the matrix: undefined behaviour *)
Theorem C83_short_vector_refuted : getrf_doc L -> sytrf_doc L ->
  forall lib n A xb, square_ok n A -> length xb < n -> lu_solve_in L lib A xb = UB /\ chol_solve_in L lib A xb = UB.
Proof.
  intros Hrf Hsf lib n A x HA Hx. assert (Hn : 1 <= n) by lia. pose proof (square_len HA) as Hl. pose proof HA as ((Q1 & Q2 & Q3) & Q4 & Q5 & Q6). split.
  - unfold lu_solve_in, getrf, getrs, lu_lib. cbn [Nat.eqb]. rewrite Q5, Q6, Nat.min_id.
    rewrite (proj2 (Nat.leb_le _ _)) by lia. rewrite fits_square, repeat_length, Nat.leb_refl by auto. cbn [andb bind].
    destruct (l_getrf L n n (d_val A) n (repeat 0%nat n)) as ((a, p), info) eqn:E1.
    destruct (@Hrf n (d_val A) (repeat 0 n) a p info Hn Hl (repeat_length _ _) E1) as (R1 & R2 & _). cbn [bind d_set_val d_row d_col d_val].
    rewrite Q5, Q6. rewrite (proj2 (Nat.leb_le _ _)) by lia. rewrite (proj2 (Nat.leb_gt n (length x))) by lia. rewrite !andb_false_r. reflexivity.
  - unfold chol_solve_in, sytrf, sytrs, lu_lib. cbn [Nat.eqb]. rewrite Q5, Q6, Nat.min_id.
    rewrite (proj2 (Nat.leb_le _ _)) by lia. rewrite fits_square, repeat_length, Nat.leb_refl by auto. cbn [andb bind].
    destruct (l_sytrf L true n (d_val A) n (repeat 0%nat n)) as ((a, p), info) eqn:E1. cbn [bind d_set_val d_row d_col d_val].
    rewrite Q5, Q6. rewrite (proj2 (Nat.leb_le _ _)) by lia. rewrite (proj2 (Nat.leb_gt n (length x))) by lia. rewrite !andb_false_r. reflexivity.
Qed.
(** more rows than columns: LU reports BREAKDOWN and leaves the vector alone *)
Theorem C83_tall_lu_partial : getrf_in_place L -> getrs_illegal L ->
  forall lib A xb, dense_ok A -> d_col A < d_row A ->
  exists A', lu_solve_in L lib A xb = Ok (BREAKDOWN, A', xb) /\ length (d_val A') = length (d_val A).
Proof.
  intros Hip Hil lib A x (Q1 & Q2 & Q3) Hrc. unfold lu_solve_in, getrf, getrs, lu_lib. cbn [Nat.eqb].
  rewrite (proj2 (Nat.leb_le _ _)) by lia. rewrite repeat_length, Nat.leb_refl.
  assert (Hfit : fits (d_row A) (d_col A) (d_row A) (length (d_val A)) = true).
  { unfold fits. destruct (d_row A =? 0) eqn:E1; auto. destruct (d_col A =? 0) eqn:E2; auto. apply Nat.eqb_neq in E1, E2. cbn [orb]. apply Nat.leb_le. nia. }
  rewrite Hfit. cbn [andb bind].
  destruct (l_getrf L (d_row A) (d_col A) (d_val A) (d_row A) (repeat 0 (Nat.min (d_row A) (d_col A)))) as ((a, p), info) eqn:E1.
  destruct (Hip _ _ _ _ _ _ _ _ E1) as (R1 & _). cbn [bind d_set_val d_row d_col d_val].
  rewrite (proj2 (Nat.leb_gt (Nat.max 1 (d_row A)) (d_col A))) by lia. cbn [andb bind].
  destruct (l_getrs L true (d_row A) a (d_col A) p x) as (x', i2) eqn:E2.
  destruct (Hil true (d_row A) a (d_col A) p x x' i2 ltac:(lia) E2) as (G1 & ->). destruct (Z.eqb_spec i2 0); [lia|].
  eexists. split; [reflexivity|]. exact R1.
Qed.
(** ... and Cholesky writes outside its arrays *)
Theorem C83_tall_cholesky_refuted : forall lib A xb, d_col A < d_row A -> chol_solve_in L lib A xb = UB.
Proof.
  intros lib A x H. unfold chol_solve_in, sytrf, lu_lib. cbn [Nat.eqb]. rewrite (proj2 (Nat.leb_le _ _)) by lia.
  rewrite repeat_length, Nat.min_r by lia. rewrite (proj2 (Nat.leb_gt (d_row A) (d_col A))) by lia. now rewrite andb_false_r.
Qed.
(** a matrix without elements is reported as BREAKDOWN *)
Theorem C83_empty_partial : getrf_illegal L -> forall lib A xb, d_row A = 0 ->
  exists x', lu_solve_in L lib A xb = Ok (BREAKDOWN, A, x').
Proof.
  intros Hil lib A x H. unfold lu_solve_in, getrf, getrs, lu_lib. cbn [Nat.eqb]. rewrite H. cbn [Nat.max Nat.leb bind].
  destruct (l_getrf L 0 (d_col A) (d_val A) 0 (repeat 0 (Nat.min 0 (d_col A)))) as ((a, p), info) eqn:E1.
  destruct (@Hil 0 (d_col A) (d_val A) 0 _ _ _ _ ltac:(lia) E1) as (G & -> & ->). cbn [bind].
  replace (d_set_val A (d_val A)) with A by (destruct A; reflexivity). rewrite H. cbn [Nat.max Nat.leb andb bind].
  rewrite andb_false_r. cbn [bind].
  destruct (l_getrs L true 0 (d_val A) (d_col A) (repeat 0 (Nat.min 0 (d_col A))) x) as (x', i2).
  destruct (Z.eqb_spec info 0); [lia|]. exists x'. destruct (i2 =? 0)%Z; reflexivity.
Qed.
(** the three-argument form stops the program when x and b differ in length *)
Theorem C83_lengths_partial : forall lib A x b, length x <> length b -> lu_solve L lib A x b = Abort /\ chol_solve L lib A x b = Abort.
Proof. intros lib A x b H. unfold lu_solve, chol_solve, lu_lib, v_copy, leneq. cbn [Nat.eqb]. rewrite (proj2 (Nat.eqb_neq _ _)) by congruence. split; reflexivity. Qed.

(** ** C84: what is left in A *)
(** LU: the factors of the transposed matrix, whose pivots are dropped *)
Theorem C84_factors_partial : getrf_doc L -> getrs_doc L ->
  forall lib n A xb, 1 <= n -> square_ok n A -> n <= length xb ->
  exists code A' x' p, lu_solve_in L lib A xb = Ok (code, A', x') /\ square_ok n A' /\ pivots_ok n p /\
    forall i j, i < n -> j < n -> dense_fn A i j = sum_n n (fun l => unit_lower (d_val A') n (landing p n j) l * upper (d_val A') n l i)%F.
Proof.
  intros Hrf Hrs lib n A x Hn HA Hx.
  destruct (@lu_core F SF Hex Hf H10 L Hrf Hrs lib n A x Hn HA Hx) as (code & A' & x' & E & _ & _ & _ & _ & _ & HA' & p & Hp & G).
  exists code, A', x', p. repeat (split; auto). intros i j Hi Hj. rewrite <- (G i j Hi Hj). reflexivity.
Qed.
(** Cholesky: the entries above the diagonal stay *)
Theorem C84_upper_kept_partial : sytrf_doc L -> sytrs_doc L ->
  forall lib n A xb, 1 <= n -> square_ok n A -> n <= length xb ->
  exists code A' x', chol_solve_in L lib A xb = Ok (code, A', x') /\ square_ok n A' /\ forall i j, i < j < n -> dense_fn A' i j = dense_fn A i j.
Proof.
  intros Hrf Hrs lib n A x Hn HA Hx.
  destruct (@chol_core F SF Hex L Hrf Hrs lib n A x Hn HA Hx) as (code & A' & x' & E & _ & _ & _ & _ & _ & HA' & G). eauto 7.
Qed.

(** ** C85: Cholesky on a symmetric matrix (definite or not) *)
Lemma lower_of_sym n (M : nat -> nat -> F) x b : symmetric n M -> (solves n (from_lower M) x b <-> solves n M x b).
Proof. intros HS. split; intros H i Hi; rewrite <- (H i Hi); [symmetry|]; apply mv_lower; auto. Qed.
Lemma lower_singular n (M : nat -> nat -> F) : symmetric n M -> (singular n (from_lower M) <-> singular n M).
Proof. intros HS. split; intros (y & Hy & H); exists y; split; auto; now apply lower_of_sym. Qed.
Theorem C85_cholesky : sytrf_doc L -> sytrs_doc L ->
  forall lib n A x b, 1 <= n -> square_ok n A -> symmetric n (dense_fn A) -> length x = n -> length b = n ->
  exists code A' x', chol_solve L lib A x b = Ok (code, A', x') /\ length x' = n /\
    (code = SUCCESS <-> ~ singular n (dense_fn A)) /\ (code = BREAKDOWN <-> singular n (dense_fn A)) /\
    (code = SUCCESS -> solves n (dense_fn A) (fn x') (fn b)).
Proof.
  intros Hrf Hrs lib n A x b Hn HA HS Hx Hb. rewrite chol_same by congruence.
  destruct (@chol_core F SF Hex L Hrf Hrs lib n A b Hn HA ltac:(lia)) as (code & A' & x' & E & Hl & Ht & Hc & Hs & Hd & _).
  rewrite (lower_of_sym _ _ HS), (lower_singular HS) in Hs. rewrite (lower_singular HS) in Hd.
  exists code, A', x'. split; auto. split; [congruence|]. assert (SUCCESS <> BREAKDOWN) by discriminate.
  split; [|split].
  - split; [intros C; now apply Hs|]. intros NS. destruct Hc as [C|C]; auto. now apply Hd in C.
  - split; [auto|]. intros SG. destruct Hc as [C|C]; auto. now apply Hs in C.
  - intros C. now apply Hs.
Qed.
Theorem C85_cholesky_in_place : sytrf_doc L -> sytrs_doc L ->
  forall lib n A xb, 1 <= n -> square_ok n A -> symmetric n (dense_fn A) -> n <= length xb ->
  exists code A' x', chol_solve_in L lib A xb = Ok (code, A', x') /\ length x' = length xb /\ (forall i, n <= i -> fn x' i = fn xb i) /\
    (code = SUCCESS <-> ~ singular n (dense_fn A)) /\ (code = BREAKDOWN <-> singular n (dense_fn A)) /\
    (code = SUCCESS -> solves n (dense_fn A) (fn x') (fn xb)).
Proof.
  intros Hrf Hrs lib n A b Hn HA HS Hb.
  destruct (@chol_core F SF Hex L Hrf Hrs lib n A b Hn HA ltac:(lia)) as (code & A' & x' & E & Hl & Ht & Hc & Hs & Hd & _).
  rewrite (lower_of_sym _ _ HS), (lower_singular HS) in Hs. rewrite (lower_singular HS) in Hd.
  exists code, A', x'. split; auto. split; auto. split; auto. assert (SUCCESS <> BREAKDOWN) by discriminate.
  split; [|split].
  - split; [intros C; now apply Hs|]. intros NS. destruct Hc as [C|C]; auto. now apply Hd in C.
  - split; [auto|]. intros SG. destruct Hc as [C|C]; auto. now apply Hs in C.
  - intros C. now apply Hs.
Qed.
(** ** C86: a matrix that is not symmetric: the system solved is that of the lower triangle *)
Theorem C86_lower_partial : sytrf_doc L -> sytrs_doc L ->
  forall lib n A xb, 1 <= n -> square_ok n A -> n <= length xb ->
  exists code A' x', chol_solve_in L lib A xb = Ok (code, A', x') /\
    (code = SUCCESS -> solves n (from_lower (dense_fn A)) (fn x') (fn xb)) /\ (code = BREAKDOWN <-> singular n (from_lower (dense_fn A))).
Proof.
  intros Hrf Hrs lib n A b Hn HA Hb.
  destruct (@chol_core F SF Hex L Hrf Hrs lib n A b Hn HA ltac:(lia)) as (code & A' & x' & E & Hl & Ht & Hc & Hs & Hd & _).
  exists code, A', x'. split; auto. split; [intros C; now apply Hs|]. assert (SUCCESS <> BREAKDOWN) by discriminate.
  split; [auto|]. intros SG. destruct Hc as [C|C]; auto. now apply Hs in C.
Qed.
End General.

Section Eigen.
Context {F : Type} {SF : Scalar F}.
Hypothesis Ho : ordered_field (F:=F).
Variable L : lapack F.

(** ** C87: DC returns the complete eigendecomposition of a symmetric matrix *)
Theorem C87_dc : forall n A l, 1 <= n -> square_ok n A -> symmetric n (dense_fn A) -> n <= length l ->
  syevd_doc n (d_val A) l (l_syevd L true n (d_val A) n l) ->
  exists code A' l', dc_solve L 0 A l = Ok (code, A', l') /\ square_ok n A' /\ length l' = length l /\ (code = SUCCESS \/ code = BREAKDOWN) /\
    (code = SUCCESS ->
      (* ascending *) (forall i j, i < j < n -> fltb (fn l' j) (fn l' i) = false) /\
      (* row i of A is an eigenvector of the old A *)
      (forall i r, i < n -> r < n -> mv n (dense_fn A) (dense_fn A' i) r = (fn l' i * dense_fn A' i r)%F) /\
      (* the rows are orthonormal *)
      (forall i j, i < n -> j < n -> dotp n (dense_fn A' i) (dense_fn A' j) = if i =? j then 1%F else 0%F) /\
      (* there are no other eigenvalues *)
      (forall mu v, (exists i, i < n /\ v i <> 0%F) -> (forall r, r < n -> mv n (dense_fn A) v r = (mu * v r)%F) -> exists i, i < n /\ fn l' i = mu) /\
      (forall i, n <= i -> fn l' i = fn l i)).
Proof.
  intros n A l Hn HA HS Hl HD. destruct (@dc_core F SF L n A l Hn HA Hl HD) as (code & A' & l' & E & HA' & Hl' & Hc & G).
  exists code, A', l'. split; auto. split; auto. split; auto. split; auto.
  intros C. destruct (G C) as (G1 & G2 & G3 & G4). clear G.
  assert (G3' : forall i r, i < n -> r < n -> mv n (dense_fn A) (dense_fn A' i) r = (fn l' i * dense_fn A' i r)%F).
  { intros i r Hi Hr. rewrite <- G3 by auto. symmetry. apply mv_lower; auto. }
  split; auto. split; auto. split; [exact G4|]. split; auto.
  intros mu v Hv Hm. exact (@std_all F SF Ho n (dense_fn A) (dense_fn A') (fn l') HS G4 G3' mu v Hv Hm).
Qed.

(** ** C88: the generalized problems *)
Theorem C88_gdc : forall itype n A B l, 1 <= n -> square_ok n A -> square_ok n B -> symmetric n (dense_fn A) -> symmetric n (dense_fn B) -> n <= length l ->
  itype = 1%Z \/ itype = 2%Z \/ itype = 3%Z ->
  sygvd_doc itype n (d_val A) (d_val B) l (l_sygvd L itype true n (d_val A) n (d_val B) n l) ->
  exists code A' B' l', gdc_solve L 0 A B l itype = Ok (code, A', B', l') /\ (code = SUCCESS \/ code = BREAKDOWN) /\
    (code = SUCCESS ->
      (forall i j, i < j < n -> fltb (fn l' j) (fn l' i) = false) /\
      (forall i r, i < n -> r < n -> gen_equation itype n (dense_fn A) (dense_fn B) (fn l' i) (dense_fn A' i) r) /\
      gen_normal itype n (dense_fn B) (dense_fn A') /\
      (forall mu v, (exists i, i < n /\ v i <> 0%F) -> (forall r, r < n -> gen_equation itype n (dense_fn A) (dense_fn B) mu v r) -> exists i, i < n /\ fn l' i = mu) /\
      pos_def n (dense_fn B)).
Proof.
  intros it n A B l Hn HA HB HSA HSB Hl Hit HD.
  destruct (@gdc_core F SF L n A B l it Hn HA HB Hl Hit HD) as (code & A' & B' & l' & E & HA' & HB' & Hl' & Hc & G).
  exists code, A', B', l'. split; auto. split; auto. intros C. destruct (G C) as (G1 & G2 & G3 & G4). clear G.
  assert (EA : forall v r, r < n -> mv n (from_lower (dense_fn A)) v r = mv n (dense_fn A) v r) by (intros; apply mv_lower; auto).
  assert (EB : forall v r, r < n -> mv n (from_lower (dense_fn B)) v r = mv n (dense_fn B) v r) by (intros; apply mv_lower; auto).
  assert (G3' : forall i r, i < n -> r < n -> gen_equation it n (dense_fn A) (dense_fn B) (fn l' i) (dense_fn A' i) r).
  { intros i r Hi Hr. specialize (G3 i r Hi Hr). destruct Hit as [ -> |[ -> | -> ]]; cbn [gen_equation] in *.
    - now rewrite EA, EB in G3.
    - rewrite EA in G3 by auto. rewrite <- G3. apply mv_vec_ext. intros; now rewrite EB.
    - rewrite EB in G3 by auto. rewrite <- G3. apply mv_vec_ext. intros; now rewrite EA. }
  assert (G4' : gen_normal it n (dense_fn B) (dense_fn A')).
  { unfold gen_normal in *. destruct (it =? 3)%Z.
    - destruct G4 as (y & Hy). exists y. intros i j Hi Hj. rewrite <- EB by auto. now apply Hy.
    - intros i j Hi Hj. rewrite <- G4 by auto. apply dotp_ext'; auto. intros; now rewrite EB. }
  split; auto. split; auto. split; auto. split.
  - intros mu v Hv Hm. exact (@gen_all F SF Ho n (dense_fn A) (dense_fn B) (dense_fn A') (fn l') it HSA HSB G4' G3' Hit mu v Hv Hm).
  - exact (@gen_pd F SF Ho n (dense_fn B) (dense_fn A') it HSB G4').
Qed.

(** ** C89: what the two DC solvers check *)
(** any library number other than 0: SUCCESS without doing anything *)
Theorem C89_lib_refuted : forall lib A B l itype, lib <> 0 ->
  dc_solve L lib A l = Ok (SUCCESS, A, l) /\ gdc_solve L lib A B l itype = Ok (SUCCESS, A, B, l).
Proof. intros lib A B l it H. unfold dc_solve, gdc_solve. rewrite (proj2 (Nat.eqb_neq _ _)) by auto. split; reflexivity. Qed.
(** lambda shorter than the matrix, or a matrix with more rows than columns: undefined behaviour *)
Theorem C89_short_refuted : forall A l, length l < d_row A -> dc_solve L 0 A l = UB.
Proof.
  intros A l H. unfold dc_solve, syevd. cbn [Nat.eqb]. rewrite (proj2 (Nat.leb_le _ _)) by lia.
  rewrite (proj2 (Nat.leb_gt (d_row A) (length l))) by lia. now rewrite andb_false_r.
Qed.
Lemma not_fits n len : 1 <= n -> len < n * n -> fits n n n len = false.
Proof. intros Hn H. unfold fits. destruct n; [lia|]. cbn [Nat.eqb orb]. apply Nat.leb_gt. nia. Qed.
Theorem C89_tall_refuted : forall A l, length (d_val A) = d_row A * d_col A -> d_col A < d_row A -> dc_solve L 0 A l = UB.
Proof.
  intros A l Hv H. unfold dc_solve, syevd. cbn [Nat.eqb]. rewrite (proj2 (Nat.leb_le _ _)) by lia. rewrite not_fits by nia. reflexivity.
Qed.
(** B smaller than A, or lambda shorter than A *)
Theorem C89_general_refuted : forall A B l itype, (1 <= itype <= 3)%Z -> 1 <= d_row A ->
  length (d_val A) < d_row A * d_row A \/ length (d_val B) < d_row A * d_row A \/ length l < d_row A -> gdc_solve L 0 A B l itype = UB.
Proof.
  intros A B l it Hit Hn H. unfold gdc_solve, sygvd. cbn [Nat.eqb]. rewrite (proj2 (Nat.leb_le _ (d_row A))) by lia.
  rewrite (proj2 (Z.leb_le _ _)), (proj2 (Z.leb_le _ _)) by lia. cbn [andb]. destruct H as [H|[H|H]].
  - rewrite not_fits by lia. reflexivity.
  - rewrite (@not_fits _ (length (d_val B))) by lia. now rewrite andb_false_r.
  - rewrite (proj2 (Nat.leb_gt (d_row A) (length l))) by lia. now rewrite andb_false_r.
Qed.
(** a problem type that does not exist is reported, and nothing is changed *)
Theorem C89_itype_partial : sygvd_illegal L -> forall A B l itype, (itype < 1 \/ 3 < itype)%Z ->
  gdc_solve L 0 A B l itype = Ok (RESIDUAL_NAN, A, B, l).
Proof.
  intros Hil A B l it Hit. unfold gdc_solve, sygvd. cbn [Nat.eqb].
  replace ((1 <=? it)%Z && (it <=? 3)%Z) with false by (symmetry; apply andb_false_iff; rewrite !Z.leb_gt; lia). cbn [andb bind].
  destruct (l_sygvd L it true (d_row A) (d_val A) (d_row A) (d_val B) (d_row A) l) as (((a, b), w), info) eqn:E.
  destruct (Hil _ _ _ _ _ _ _ _ _ _ _ _ Hit E) as (Hi & -> & -> & ->). cbn [bind].
  rewrite (proj2 (Z.ltb_ge _ _)), (proj2 (Z.ltb_lt _ _)) by lia. destruct A, B; reflexivity.
Qed.
(** a matrix that is not symmetric: the decomposition of its lower triangle *)
Theorem C89_lower_partial : forall n A l, 1 <= n -> square_ok n A -> n <= length l ->
  syevd_doc n (d_val A) l (l_syevd L true n (d_val A) n l) ->
  exists code A' l', dc_solve L 0 A l = Ok (code, A', l') /\ (code = SUCCESS \/ code = BREAKDOWN) /\
    (code = SUCCESS -> forall i r, i < n -> r < n -> mv n (from_lower (dense_fn A)) (dense_fn A' i) r = (fn l' i * dense_fn A' i r)%F).
Proof.
  intros n A l Hn HA Hl HD. destruct (@dc_core F SF L n A l Hn HA Hl HD) as (code & A' & l' & E & HA' & Hl' & Hc & G).
  exists code, A', l'. split; auto. split; auto. intros C. now apply G.
Qed.
End Eigen.

(** ** concrete cases: the rationals and the reference library of DirRef.v *)
Definition Qhex : exact Qcs := of_ring Qcs_ordered.
Definition Qhf : @field_arith Qc Qcs := of_field Qcs_ordered.
Definition RL : lapack Qc := @ref_lapack Qc Qcs.
Definition dq (r c : nat) (v : list Qc) : dense Qc := mkDense r c v 0 (r * c) (r * c) true.
Lemma dq_square n v : length v = n * n -> @square_ok Qc n (dq n n v).
Proof. intros H. repeat split; cbn; auto; lia. Qed.
Lemma Q10 : @f1 Qc Qcs <> @f0 Qc Qcs.
Proof. intro C. apply Qcs_eq in C. vm_compute in C. discriminate. Qed.
Ltac qc := apply Qcs_eq; vm_compute; reflexivity.
Ltac qne := let C := fresh in intro C; apply Qcs_eq in C; vm_compute in C; discriminate.
Lemma ran (T : Type) (r : res T) (b : T -> bool) : match r with Ok o => b o | _ => false end = true -> exists o, r = Ok o /\ b o = true.
Proof. destruct r; try discriminate. eauto. Qed.
Lemma Qtail (s t : Qc) : @fadd Qc Qcs s (@fmul Qc Qcs (@f0 Qc Qcs) t) = s.
Proof. cbn. ring. Qed.
Definition coded (c : Z) (x : list Qc) (o : Z * dense Qc * list Qc) : bool :=
  let '(c', _, x') := o in (c =? c')%Z && @vec_eqb Qc Qcs x x'.
Lemma vec_eqb_eq (u v : list Qc) : @vec_eqb Qc Qcs u v = true -> u = v.
Proof.
  unfold vec_eqb. rewrite andb_true_iff, Nat.eqb_eq. revert v. induction u as [|a u IH]; intros [|b v] (Hl & H); cbn in Hl; try discriminate; auto.
  cbn [List.combine forallb fst snd] in H. apply andb_true_iff in H. destruct H as (H1 & H2). f_equal; [now apply Qcs_eq|]. apply IH. auto.
Qed.
Lemma coded_ran c x (r : res (Z * dense Qc * list Qc)) : match r with Ok o => coded c x o | _ => false end = true -> exists A', r = Ok (c, A', x).
Proof. intros H. destruct (ran r (coded c x) H) as (((c', A'), x') & -> & E). unfold coded in E. apply andb_true_iff in E. destruct E as (E1 & E2).
  apply Z.eqb_eq in E1. apply vec_eqb_eq in E2. subst. eauto. Qed.

Theorem RL_docs : @getrf_doc Qc Qcs RL /\ @getrs_doc Qc Qcs RL /\ @sytrf_doc Qc Qcs RL /\ @sytrs_doc Qc Qcs RL /\ getrf_illegal RL /\ getrs_illegal RL.
Proof.
  split; [exact (@ref_getrf_doc Qc Qcs Qhex Qhf)|]. split; [exact (@ref_getrs_doc Qc Qcs Qhex Qhf Q10)|].
  split; [exact (@ref_sytrf_doc Qc Qcs Qhex Qhf Q10)|]. split; [exact (@ref_sytrs_doc Qc Qcs Qhex Qhf Q10)|].
  split; [exact (@ref_getrf_illegal Qc Qcs)|exact (@ref_getrs_illegal Qc Qcs)].
Qed.
(** a system that needs an interchange; a singular one *)
Theorem C82_example :
  (exists A', lu_solve RL 0 (dq 2 2 [q 0 1; q 2 1; q 3 1; q 1 1]) [q 0 1; q 0 1] [q 4 1; q 5 1] = Ok (SUCCESS, A', [q 1 1; q 2 1])) /\
  square_ok 2 (dq 2 2 [q 0 1; q 2 1; q 3 1; q 1 1]) /\
  exists o, lu_solve RL 0 (dq 2 2 [q 1 1; q 2 1; q 2 1; q 4 1]) [q 0 1; q 0 1] [q 4 1; q 5 1] = Ok o /\ (fst (fst o) =? BREAKDOWN)%Z = true.
Proof.
  split; [apply coded_ran; vm_compute; reflexivity|]. split; [now apply dq_square|].
  apply (ran _ (fun o => (fst (fst o) =? BREAKDOWN)%Z)). vm_compute. reflexivity.
Qed.
(** 2 x 3: SUCCESS although x, with any third element, does not solve A x = b *)
Theorem C83_wide_refuted : let A := dq 2 3 [q 1 1; q 2 1; q 0 1; q 3 1; q 4 1; q 0 1] in let x := [q 2 1; q (-1) 2] in
  (exists A', lu_solve RL 0 A [q 0 1; q 0 1] [q 1 1; q 1 1] = Ok (SUCCESS, A', x)) /\
    forall t, @mv Qc Qcs 3 (@dense_fn Qc Qcs A) (@fn Qc Qcs (x ++ [t])) 1 <> q 1 1.
Proof.
  intros A x. split.
  - apply coded_ran. vm_compute. reflexivity.
  - intros t H. assert (G : @mv Qc Qcs 3 (@dense_fn Qc Qcs A) (@fn Qc Qcs (x ++ [t])) 1 = @mv Qc Qcs 2 (@dense_fn Qc Qcs A) (@fn Qc Qcs x) 1).
    { unfold mv. cbn [sum_n]. replace (@dense_fn Qc Qcs A 1 2) with (@f0 Qc Qcs) by qc. apply Qtail. }
    rewrite G in H. revert H. qne.
Qed.
(** solving twice with the same A: the second answer is wrong, with SUCCESS *)
Lemma ok_code (r : res (Z * dense Qc * list Qc)) c A x c' A' x' : r = Ok (c, A, x) -> r = Ok (c', A', x') -> c = c'.
Proof. congruence. Qed.
Definition coded_A (c : Z) (A : dense Qc) (x : list Qc) (o : Z * dense Qc * list Qc) : bool :=
  let '(c', A', x') := o in (c =? c')%Z && @vec_eqb Qc Qcs x x' && @vec_eqb Qc Qcs (d_val A) (d_val A') && (d_row A' =? d_row A) && (d_col A' =? d_col A)
    && (d_first A' =? d_first A) && (d_nnz A' =? d_nnz A) && (d_alloc A' =? d_alloc A) && Bool.eqb (d_own A') (d_own A).
Lemma coded_A_ran c A x (r : res (Z * dense Qc * list Qc)) : match r with Ok o => coded_A c A x o | _ => false end = true -> r = Ok (c, A, x).
Proof.
  intros H. destruct (ran r (coded_A c A x) H) as (((c', A'), x') & -> & E). unfold coded_A in E. rewrite !andb_true_iff, !Nat.eqb_eq, Z.eqb_eq in E.
  destruct E as ((((((((E1 & E2) & E3) & E4) & E5) & E6) & E7) & E8) & E9). apply vec_eqb_eq in E2, E3. apply eqb_prop in E9.
  destruct A, A'; cbn in *; congruence.
Qed.
Theorem C84_refuted : let A := dq 2 2 [q 2 1; q 1 1; q 4 1; q 5 1] in let b := [q 1 1; q 1 1] in
  exists A' x1 A'' x2, lu_solve RL 0 A [q 0 1; q 0 1] b = Ok (SUCCESS, A', x1) /\ lu_solve RL 0 A' [q 0 1; q 0 1] b = Ok (SUCCESS, A'', x2) /\
    @solves Qc Qcs 2 (@dense_fn Qc Qcs A) (@fn Qc Qcs x1) (@fn Qc Qcs b) /\ ~ @solves Qc Qcs 2 (@dense_fn Qc Qcs A) (@fn Qc Qcs x2) (@fn Qc Qcs b).
Proof.
  intros A b. destruct (@coded_ran SUCCESS [q 5 8; q (-1) 2] (lu_solve RL 0 (dq 2 2 [q 2 1; q 1 2; q 4 1; q 3 1]) [q 0 1; q 0 1] b)) as (A2 & E2); [vm_compute; reflexivity|].
  exists (dq 2 2 [q 2 1; q 1 2; q 4 1; q 3 1]), [q 2 3; q (-1) 3], A2, [q 5 8; q (-1) 2].
  split; [apply coded_A_ran; vm_compute; reflexivity|]. split; [exact E2|]. split.
  - intros i Hi. destruct i as [|[|i]]; [qc|qc|lia].
  - intros H. specialize (H 0 ltac:(lia)). revert H. qne.
Qed.
(** symmetric and indefinite *)
Theorem C85_example : symmetric 2 (@dense_fn Qc Qcs (dq 2 2 [q 0 1; q 2 1; q 2 1; q 1 1])) /\
  exists A', chol_solve RL 0 (dq 2 2 [q 0 1; q 2 1; q 2 1; q 1 1]) [q 0 1; q 0 1] [q 4 1; q 4 1] = Ok (SUCCESS, A', [q 1 1; q 2 1]).
Proof.
  split.
  - intros i j Hi Hj. destruct i as [|[|i]]; [| |lia]; (destruct j as [|[|j]]; [| |lia]); qc.
  - apply coded_ran. vm_compute. reflexivity.
Qed.
(** not symmetric: SUCCESS with an x that does not solve A x = b; BREAKDOWN although A is not singular *)
Theorem C86_refuted :
  (let A := dq 2 2 [q 1 1; q 1 1; q 0 1; q 1 1] in
   exists A' x, chol_solve RL 0 A [q 0 1; q 0 1] [q 1 1; q 1 1] = Ok (SUCCESS, A', x) /\
     ~ @solves Qc Qcs 2 (@dense_fn Qc Qcs A) (@fn Qc Qcs x) (@fn Qc Qcs [q 1 1; q 1 1])) /\
  (let A := dq 2 2 [q 1 1; q 2 1; q 1 1; q 1 1] in
   exists A' x, chol_solve RL 0 A [q 0 1; q 0 1] [q 1 1; q 1 1] = Ok (BREAKDOWN, A', x) /\ ~ @singular Qc Qcs 2 (@dense_fn Qc Qcs A)).
Proof.
  split.
  - intros A. destruct (@coded_ran SUCCESS [q 1 1; q 1 1] (chol_solve RL 0 A [q 0 1; q 0 1] [q 1 1; q 1 1])) as (A' & E); [vm_compute; reflexivity|].
    exists A', [q 1 1; q 1 1]. split; auto. intros H. specialize (H 0 ltac:(lia)). revert H. qne.
  - intros A. destruct (@coded_ran BREAKDOWN [q 1 1; q 0 1] (chol_solve RL 0 A [q 0 1; q 0 1] [q 1 1; q 1 1])) as (A' & E); [vm_compute; reflexivity|].
    exists A', [q 1 1; q 0 1]. split; auto.
    destruct (@C82_lu Qc Qcs Qhex Qhf Q10 RL) with (lib := 0) (n := 2) (A := A) (x := [q 0 1; q 0 1]) (b := [q 1 1; q 1 1]) as (c & B & y & E2 & _ & G & _).
    1,2: apply RL_docs. 1: lia. 1: now apply dq_square. 1,2: reflexivity.
    apply G. destruct (@coded_ran SUCCESS [q 1 1; q 0 1] (lu_solve RL 0 A [q 0 1; q 0 1] [q 1 1; q 1 1])) as (B2 & E3); [vm_compute; reflexivity|].
    apply (ok_code E2 E3).
Qed.
(** *** DC: a library whose ?syevd and ?sygvd return the given arrays *)
Definition EL (a b w : list Qc) : lapack Qc := Lapack (l_getrf RL) (l_getrs RL) (l_sytrf RL) (l_sytrs RL)
  (fun _ _ _ _ _ => (a, w, 0%Z)) (fun _ _ _ _ _ _ _ _ => (a, b, w, 0%Z)).
Ltac two i := let i' := fresh i in destruct i as [|i']; [|destruct i' as [|i']; [|exfalso; lia]].
Definition coded_L (c : Z) (a w : list Qc) (o : Z * dense Qc * list Qc) : bool :=
  let '(c', A', w') := o in (c =? c')%Z && @vec_eqb Qc Qcs a (d_val A') && @vec_eqb Qc Qcs w w'.
(** the matrix (41 -12; -12 34): eigenvalues 25 and 50, eigenvectors (3/5 4/5) and (-4/5 3/5) *)
Theorem C87_example : let A := dq 2 2 [q 41 1; q (-12) 1; q (-12) 1; q 34 1] in
  let L := EL [q 3 5; q 4 5; q (-4) 5; q 3 5] [] [q 25 1; q 50 1] in
  square_ok 2 A /\ symmetric 2 (@dense_fn Qc Qcs A) /\ @syevd_doc Qc Qcs 2 (d_val A) [q 0 1; q 0 1] (l_syevd L true 2 (d_val A) 2 [q 0 1; q 0 1]) /\
  exists o, dc_solve L 0 A [q 0 1; q 0 1] = Ok o /\ coded_L SUCCESS [q 3 5; q 4 5; q (-4) 5; q 3 5] [q 25 1; q 50 1] o = true.
Proof.
  intros A L. split; [now apply dq_square|]. split; [intros i j Hi Hj; two i; two j; qc|]. split.
  - unfold syevd_doc. cbn [l_syevd EL L]. split; [reflexivity|]. split; [reflexivity|]. split; [lia|]. intros _. repeat split.
    + intros i Hi. destruct i as [|[|i]]; [lia|lia|]. unfold fn. rewrite !nth_overflow by (cbn; lia). reflexivity.
    + intros i j Hij. two i; two j; try (exfalso; lia); vm_compute; reflexivity.
    + intros i r Hi Hr. two i; two r; qc.
    + intros i j Hi Hj. two i; two j; qc.
  - apply (ran _ (coded_L SUCCESS _ _)). vm_compute. reflexivity.
Qed.
(** B = diag(4, 9), the same eigenvalues, for the three problem types *)
Definition gen_case (itype : Z) (A : list Qc) (Z' : list Qc) : Prop :=
  let A := dq 2 2 A in let B := dq 2 2 [q 4 1; q 0 1; q 0 1; q 9 1] in let l := [q 0 1; q 0 1] in
  let L := EL Z' [q 2 1; q 0 1; q 0 1; q 3 1] [q 25 1; q 50 1] in
  square_ok 2 A /\ square_ok 2 B /\ symmetric 2 (@dense_fn Qc Qcs A) /\ symmetric 2 (@dense_fn Qc Qcs B) /\
  @sygvd_doc Qc Qcs itype 2 (d_val A) (d_val B) l (l_sygvd L itype true 2 (d_val A) 2 (d_val B) 2 l) /\
  exists o, gdc_solve L 0 A B l itype = Ok o /\ (fst (fst (fst o)) =? SUCCESS)%Z = true.
Ltac gen_tac := unfold gen_case; split; [now apply dq_square|]; split; [now apply dq_square|];
  split; [intros i j Hi Hj; two i; two j; qc|]; split; [intros i j Hi Hj; two i; two j; qc|]; split;
  [unfold sygvd_doc; cbn [l_sygvd EL]; split; [reflexivity|]; split; [reflexivity|]; split; [reflexivity|]; split; [lia|]; intros _; split;
    [intros i Hi; destruct i as [|[|i]]; [lia|lia|]; unfold fn; rewrite !nth_overflow by (cbn; lia); reflexivity|]; split;
    [intros i j Hij; two i; two j; try (exfalso; lia); vm_compute; reflexivity|]; split;
    [intros i r Hi Hr; cbn [gen_equation]; two i; two r; qc|]
  |apply (ran _ (fun o => (fst (fst (fst o)) =? SUCCESS)%Z)); vm_compute; reflexivity].
Theorem C88_example : gen_case 1 [q 164 1; q (-72) 1; q (-72) 1; q 306 1] [q 3 10; q 4 15; q (-2) 5; q 1 5] /\
  gen_case 2 [q 41 4; q (-2) 1; q (-2) 1; q 34 9] [q 3 10; q 4 15; q (-2) 5; q 1 5] /\
  gen_case 3 [q 41 4; q (-2) 1; q (-2) 1; q 34 9] [q 6 5; q 12 5; q (-8) 5; q 9 5].
Proof.
  split; [|split]; gen_tac; unfold gen_normal; cbn [Z.eqb Pos.eqb].
  - intros i j Hi Hj. two i; two j; qc.
  - intros i j Hi Hj. two i; two j; qc.
  - exists (fun j => @fn Qc Qcs (if j =? 0 then [q 3 10; q 4 15] else [q (-2) 5; q 1 5])).
    intros i j Hi Hj. two i; two j; split; qc.
Qed.
(** A not symmetric, (41 0; -12 34): SUCCESS, and row 0 of the result is no eigenvector of A *)
Theorem C89_nonsymmetric_refuted : let A := dq 2 2 [q 41 1; q 0 1; q (-12) 1; q 34 1] in
  let L := EL [q 3 5; q 4 5; q (-4) 5; q 3 5] [] [q 25 1; q 50 1] in
  @syevd_doc Qc Qcs 2 (d_val A) [q 0 1; q 0 1] (l_syevd L true 2 (d_val A) 2 [q 0 1; q 0 1]) /\
  (exists o, dc_solve L 0 A [q 0 1; q 0 1] = Ok o /\ coded_L SUCCESS [q 3 5; q 4 5; q (-4) 5; q 3 5] [q 25 1; q 50 1] o = true) /\
  @mv Qc Qcs 2 (@dense_fn Qc Qcs A) (@fn Qc Qcs [q 3 5; q 4 5]) 0 <> @fmul Qc Qcs (q 25 1) (q 3 5).
Proof.
  intros A L. split; [|split].
  - unfold syevd_doc. cbn [l_syevd EL L]. split; [reflexivity|]. split; [reflexivity|]. split; [lia|]. intros _. repeat split.
    + intros i Hi. destruct i as [|[|i]]; [lia|lia|]. unfold fn. rewrite !nth_overflow by (cbn; lia). reflexivity.
    + intros i j Hij. two i; two j; try (exfalso; lia); vm_compute; reflexivity.
    + intros i r Hi Hr. two i; two r; qc.
    + intros i j Hi Hj. two i; two j; qc.
  - apply (ran _ (coded_L SUCCESS _ _)). vm_compute. reflexivity.
  - qne.
Qed.
(** 3 x 2: LU answers BREAKDOWN *)
Theorem C83_example : exists o, lu_solve_in RL 0 (dq 3 2 [q 1 1; q 2 1; q 3 1; q 4 1; q 5 1; q 7 1]) [q 1 1; q 1 1; q 1 1] = Ok o /\
  coded BREAKDOWN [q 1 1; q 1 1; q 1 1] o = true.
Proof. apply (ran _ (coded BREAKDOWN _)). vm_compute. reflexivity. Qed.

Print Assumptions C82_lu.
Print Assumptions C82_lu_in_place.
Print Assumptions C83_short_vector_refuted.
Print Assumptions C83_tall_lu_partial.
Print Assumptions C83_tall_cholesky_refuted.
Print Assumptions C83_empty_partial.
Print Assumptions C83_lengths_partial.
Print Assumptions C84_factors_partial.
Print Assumptions C84_upper_kept_partial.
Print Assumptions C85_cholesky.
Print Assumptions C85_cholesky_in_place.
Print Assumptions C86_lower_partial.
Print Assumptions C87_dc.
Print Assumptions C88_gdc.
Print Assumptions C89_lib_refuted.
Print Assumptions C89_short_refuted.
Print Assumptions C89_tall_refuted.
Print Assumptions C89_general_refuted.
Print Assumptions C89_itype_partial.
Print Assumptions C89_lower_partial.
Print Assumptions RL_docs.
Print Assumptions C82_example.
Print Assumptions C83_wide_refuted.
Print Assumptions C84_refuted.
Print Assumptions C85_example.
Print Assumptions C86_refuted.
Print Assumptions C87_example.
Print Assumptions C88_example.
Print Assumptions C89_nonsymmetric_refuted.
Print Assumptions C83_example.
