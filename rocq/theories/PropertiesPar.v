(** * PropertiesPar: C39, every OpenMP loop gives the sequential result under every schedule.

    The theorems for vectors, Dense matrices, tensors and reductions (C19, C21, C25, C26, C41, C44, C46, C47, C56
    ...) already quantify over all distributions of iterations over threads and all interleavings of the
    individual memory accesses.  Here: the general theorem, and the CRS operations.  [par_result N body m m']
    (Mem.v): some execution of the parallel loop completes, every completed execution ends in m', none reaches
    an invalid access, none runs forever. *)
From Verif Require Import Base Scalar Spec Mem MemSpec ParProof KernelProof VecModel DenseModel CrsModel CrsObserve CrsSimProof CrsMiscProof CrsParModel CrsParProof.
Local Existing Instance one_thread. (* for the concrete examples *)
Set Implicit Arguments.

(** If no iteration accesses what another one writes, the loop under any schedule is the sequential loop. *)
Theorem C39_race_free {F} {SF : Scalar F} (N : nat) (body : nat -> prog F unit) (R W : nat -> ptr -> Prop) (m m' : mem F) :
  (forall i, i < N -> fp (R i) (W i) (body i)) ->
  (forall i j p, i < N -> j < N -> i <> j -> W i p -> ~ R j p /\ ~ W j p) ->
  seq_for N body m = Ok m' -> par_result N body m m'.
Proof. intros H1 H2. apply race_free_par. exists R, W. auto. Qed.
Print Assumptions C39_race_free.

Section C39.
Context {F : Type} {SF : Scalar F}.

Lemma nth_repeat_any {A} (a : A) n k : nth k (repeat a n) a = a.
Proof. revert k; induction n; intros [|k]; cbn; auto. Qed.
Lemma rd_lt_len {A} (l : list A) i a : rd l i = Ok a -> i < length l.
Proof. intros H. now apply rd_Ok in H. Qed.
Hint Resolve rd_lt_len : core.
Lemma rd_lt_nth {A} (l : list A) i a : i < length l -> (forall d, nth i l d = a) -> rd l i = Ok a.
Proof. intros H H'. rewrite (@rd_lt _ l i a) by auto. now rewrite H'. Qed.
Lemma assert_eqb a b u : assert_ (a =? b) = Ok u -> a = b.
Proof. destruct (Nat.eqb_spec a b); [auto|discriminate]. Qed.

(** y = A*x (crs_matvec.hpp) *)
Theorem C39_crs_matvec (A : crs F) (x y y' : list F) (m : mem F) (bA bx b : nat) :
  rd m bA = Ok (m_val A) -> rd m bx = Ok x -> rd m b = Ok y -> bA <> b -> bx <> b ->
  crs_matvec A x y = Ok y' ->
  par_result (m_row A) (p_matvec A bA bx b) m (upd m b y').
Proof.
  intros HA Hx Hy NA Nx E. assert (Hb : b < length m) by eauto. unfold crs_matvec, crs_matvec_core in E. cbv beta iota in E. dobs E.
  eapply par_buf; [| exact Hy | | exact E].
  - exists (fun _ p => fst p = bA \/ fst p = bx), (fun i p => p = (b, i)). split.
    + intros i Hi. unfold p_matvec. apply fp_range. intros lo hi _ _. apply fp_bind.
      * apply fp_pfor. intros j s Hj. cbn. split; auto. intros v. apply fp_plift_bind. intros c _. cbn. auto.
      * intros t. cbn. auto.
    + intros i j p _ _ Hij ->. cbn. split; [intuition congruence|]. congruence.
  - cbv beta. intros i w w' Hi Ei. dobs Ei. unfold p_matvec, p_range. go. rewrite run_pbind.
    erewrite run_pfor_loc; [| |eassumption].
    + go. reflexivity.
    + cbv beta. intros j s s' Hj Ej. dobs Ej. go. now injection Ej as <-.
Qed.
(** the parallel part of y = A^T*x, and of row/col/diag and of the zero fills in the conversions *)
Theorem C39_zero_fill (y : list F) (m : mem F) (b : nat) : rd m b = Ok y ->
  par_result (length y) (p_zero b) m (upd m b (repeat f0 (length y))).
Proof.
  intros Hy. assert (Hb : b < length m) by eauto.
  assert (E : for_ 0 (length y) (fun i w => wr w i f0) y = Ok (repeat f0 (length y))).
  { destruct (@for0_inv (list F) (fun i w => length w = length y /\ forall k, k < i -> nth k w f0 = f0) (length y)
      (fun i w => wr w i f0) y) as (w & Ew & Lw & Nw).
    - split; [auto|intros; lia].
    - intros i w Hi [L N]. rewrite wr_lt by lia. eexists; split; [reflexivity|]. rewrite upd_length. split; auto.
      intros k Hk. destruct (Nat.eq_dec k i) as [->|]; [apply nth_upd_same; lia|rewrite nth_upd_other by auto; apply N; lia].
    - rewrite Ew. f_equal. apply (@list_ext F f0); [now rewrite repeat_length|]. intros k Hk. rewrite Nw by lia. symmetry. apply nth_repeat_any. }
  eapply par_buf; [| exact Hy | | exact E].
  - exists (fun _ _ => False), (fun i p => p = (b, i)). split.
    + intros i Hi. cbn. auto.
    + intros i j p _ _ Hij ->. split; [auto|congruence].
  - cbv beta. intros i w w' Hi Ei. unfold p_zero. go. reflexivity.
Qed.

(** times_row, times_col (crs_times.hpp) *)
Theorem C39_crs_times_row (A C C' : crs F) (x : list F) (m : mem F) (bA bx bC : nat) : crs_readable A ->
  rd m bA = Ok (m_val A) -> rd m bx = Ok x -> rd m bC = Ok (m_val C) -> bA <> bC -> bx <> bC ->
  crs_times_row A x C = Ok C' ->
  par_result (m_row A) (p_times_row A (m_first C) bA bx bC) m (upd m bC (m_val C')).
Proof.
  intros HR HA Hx Hy NA Nx E. assert (Hb : bC < length m) by eauto. unfold crs_times_row in E. dobs E. injection E as <-. cbn [m_val m_set_val].
  eapply par_buf; [| exact Hy | | eassumption].
  - exists (fun _ p => fst p = bA \/ fst p = bx), (fun i p => exists j, p = (bC, m_first C + j) /\ in_row A i j). split.
    + intros i Hi. unfold p_times_row. apply fp_range. intros lo hi E1' E2'. apply fp_pfor. intros j s Hj. cbn. split; auto.
      intros v. apply fp_plift_bind. intros c _. cbn. split; auto. intros _. split; [|exact I].
      exists j. split; auto. exists lo, hi. auto.
    + intros i i' p Hi Hi' Hij (j & -> & J). cbn. split; [intuition congruence|].
      intros (j' & Ej & J'). injection Ej as Ej. assert (j = j') by lia. subst j'. apply Hij. eapply in_row_inj; eauto.
  - cbv beta. intros i w w' Hi Ei. dobs Ei. unfold p_times_row, p_range. go. eapply run_pfor_buf; [|exact Ei].
    cbv beta. intros j s s' Hj Ej. dobs Ej. go. reflexivity.
Qed.
Theorem C39_crs_times_col (A C C' : crs F) (x : list F) (m : mem F) (bA bx bC : nat) : crs_readable A ->
  rd m bA = Ok (m_val A) -> rd m bx = Ok x -> rd m bC = Ok (m_val C) -> bA <> bC -> bx <> bC ->
  crs_times_col A x C = Ok C' ->
  par_result (m_row A) (p_times_col A (m_first C) bA bx bC) m (upd m bC (m_val C')).
Proof.
  intros HR HA Hx Hy NA Nx E. assert (Hb : bC < length m) by eauto. unfold crs_times_col in E. dobs E. injection E as <-. cbn [m_val m_set_val].
  eapply par_buf; [| exact Hy | | eassumption].
  - exists (fun _ p => fst p = bA \/ fst p = bx), (fun i p => exists j, p = (bC, m_first C + j) /\ in_row A i j). split.
    + intros i Hi. unfold p_times_col. apply fp_range. intros lo hi E1' E2'. apply fp_pfor. intros j s Hj. cbn. split; auto.
      intros v. split; auto. intros _. split; [|exact I]. exists j. split; auto. exists lo, hi. auto.
    + intros i i' p Hi Hi' Hij (j & -> & J). cbn. split; [intuition congruence|].
      intros (j' & Ej & J'). injection Ej as Ej. assert (j = j') by lia. subst j'. apply Hij. eapply in_row_inj; eauto.
  - cbv beta. intros i w w' Hi Ei. dobs Ei. unfold p_times_col, p_range. go. eapply run_pfor_buf; [|exact Ei].
    cbv beta. intros j s s' Hj Ej. dobs Ej. go. reflexivity.
Qed.
(** one row, one column (crs_line_times.hpp); the row loop has rowd[num+1]-rowd[num] iterations *)
Theorem C39_crs_times_row_line (A C C' : crs F) (num lo hi : nat) (x : list F) (m : mem F) (bA bx bC : nat) :
  rd m bA = Ok (m_val A) -> rd m bx = Ok x -> rd m bC = Ok (m_val C) -> bA <> bC -> bx <> bC ->
  rd (m_rp A) num = Ok lo -> rd (m_rp A) (num + 1) = Ok hi ->
  crs_times_row_line A num x C = Ok C' ->
  par_result (hi - lo) (p_times_row_line A (m_first C) lo bA bx bC) m (upd m bC (m_val C')).
Proof.
  intros HA Hx Hy NA Nx R1 R2 E. assert (Hb : bC < length m) by eauto. unfold crs_times_row_line in E. rewrite R1, R2 in E.
  dobs E. injection E as <-. cbn [m_val m_set_val].
  match goal with H : Ok lo = Ok ?a |- _ => injection H as <- end. match goal with H : Ok hi = Ok ?a |- _ => injection H as <- end.
  match goal with H : for_ lo hi _ _ = _ |- _ => rewrite for_shift in H; rename H into EF end.
  eapply par_buf; [| exact Hy | | exact EF].
  - exists (fun _ p => fst p = bA \/ fst p = bx), (fun n p => p = (bC, m_first C + (lo + n))). split.
    + intros i Hi. unfold p_times_row_line. cbn. split; auto. intros v. apply fp_plift_bind. intros c _. cbn. auto.
    + intros i i' p Hi Hi' Hij ->. cbn. split; [intuition congruence|]. intros Ej. injection Ej. lia.
  - cbv beta. intros n w w' Hn Ei. dobs Ei. unfold p_times_row_line. cbv zeta. go. reflexivity.
Qed.
Theorem C39_crs_times_col_line (A C C' : crs F) (num : nat) (x : list F) (m : mem F) (bA bx bC : nat) : crs_readable A ->
  rd m bA = Ok (m_val A) -> rd m bx = Ok x -> rd m bC = Ok (m_val C) -> bA <> bC -> bx <> bC ->
  crs_times_col_line A num x C = Ok C' ->
  par_result (m_row A) (p_times_col_line A num (m_first C) bA bx bC) m (upd m bC (m_val C')).
Proof.
  intros HR HA Hx Hy NA Nx E. assert (Hb : bC < length m) by eauto. unfold crs_times_col_line in E. dobs E. injection E as <-. cbn [m_val m_set_val].
  eapply par_buf; [| exact Hy | | eassumption].
  - exists (fun _ p => fst p = bA \/ fst p = bx), (fun i p => exists j, p = (bC, m_first C + j) /\ in_row A i j). split.
    + intros i Hi. unfold p_times_col_line. apply fp_range. intros lo hi E1' E2'. apply fp_pfor. intros j s Hj.
      apply fp_plift_bind. intros c _. destruct (c =? num); [|exact I]. cbn. split; auto.
      intros v. split; auto. intros _. split; [|exact I]. exists j. split; auto. exists lo, hi. auto.
    + intros i i' p Hi Hi' Hij (j & -> & J). cbn. split; [intuition congruence|].
      intros (j' & Ej & J'). injection Ej as Ej. assert (j = j') by lia. subst j'. apply Hij. eapply in_row_inj; eauto.
  - cbv beta. intros i w w' Hi Ei. dobs Ei. unfold p_times_col_line, p_range. go. eapply run_pfor_buf; [|exact Ei].
    cbv beta. intros j s s' Hj Ej. apply bind_ok in Ej. destruct Ej as (c & Ec & Ej). go.
    destruct (c =? num); [dobs Ej; go; reflexivity|]. injection Ej as <-. reflexivity.
Qed.

(** diag_add, diag_sub, diag_mul, diag_div with a scalar and with a vector (crs_diag_op.hpp) *)
Theorem C39_crs_diag_scalar (op : F -> F -> F) (A A' : crs F) (alpha : F) (m : mem F) (bA : nat) : crs_readable A ->
  rd m bA = Ok (m_val A) -> crs_diag_scalar op A alpha = Ok A' ->
  par_result (m_row A) (p_diag_scalar op A alpha bA) m (upd m bA (m_val A')).
Proof.
  intros HR HA E. assert (Hb : bA < length m) by eauto. unfold crs_diag_scalar in E. dobs E. injection E as <-. cbn [m_val m_set_val].
  eapply par_buf; [| exact HA | | eassumption].
  - exists (fun i p => exists j, p = (bA, j) /\ in_row A i j), (fun i p => exists j, p = (bA, j) /\ in_row A i j). split.
    + intros i Hi. unfold p_diag_scalar. apply fp_range. intros lo hi E1' E2'. apply fp_pfor. intros j s Hj.
      apply fp_plift_bind. intros c _. destruct (i =? c); [|exact I].
      assert (exists j0, (bA, j) = (bA, j0) /\ in_row A i j0) by (exists j; split; auto; exists lo, hi; auto).
      cbn. auto.
    + intros i i' p Hi Hi' Hij (j & -> & J).
      assert (~ exists j0, (bA, j) = (bA, j0) /\ in_row A i' j0).
      { intros (j' & Ej & J'). injection Ej as <-. apply Hij. eapply in_row_inj; eauto. }
      auto.
  - cbv beta. intros i w w' Hi Ei. dobs Ei. unfold p_diag_scalar, p_range. go. eapply run_pfor_buf; [|exact Ei].
    cbv beta. intros j s s' Hj Ej. apply bind_ok in Ej. destruct Ej as (c & Ec & Ej). go.
    destruct (i =? c); [dobs Ej; go; reflexivity|]. injection Ej as <-. reflexivity.
Qed.
Theorem C39_crs_diag_vector (op : F -> F -> F) (A A' : crs F) (x : list F) (m : mem F) (bA bx : nat) : crs_readable A ->
  rd m bA = Ok (m_val A) -> rd m bx = Ok x -> bx <> bA -> crs_diag_vector op A x = Ok A' ->
  par_result (if m_row A <? m_col A then m_row A else m_col A) (p_diag_vector op A bA bx) m (upd m bA (m_val A')).
Proof.
  intros HR HA Hx Nx E. assert (Hb : bA < length m) by eauto. unfold crs_diag_vector in E. dobs E. injection E as <-. cbn [m_val m_set_val].
  assert (HL : forall i, i < (if m_row A <? m_col A then m_row A else m_col A) -> i < m_row A).
  { intros i. destruct (Nat.ltb_spec (m_row A) (m_col A)); lia. }
  eapply par_buf; [| exact HA | | eassumption].
  - exists (fun i p => (exists j, p = (bA, j) /\ in_row A i j) \/ fst p = bx), (fun i p => exists j, p = (bA, j) /\ in_row A i j). split.
    + intros i Hi. unfold p_diag_vector. apply fp_range. intros lo hi E1' E2'. apply fp_pfor. intros j s Hj.
      apply fp_plift_bind. intros c _. destruct (i =? c); [|exact I].
      assert (exists j0, (bA, j) = (bA, j0) /\ in_row A i j0) by (exists j; split; auto; exists lo, hi; auto).
      cbn. auto.
    + intros i i' p Hi Hi' Hij (j & -> & J).
      assert (~ exists j0, (bA, j) = (bA, j0) /\ in_row A i' j0).
      { intros (j' & Ej & J'). injection Ej as <-. apply Hij. eapply in_row_inj; eauto. }
      cbn. split; [intuition congruence|auto].
  - cbv beta. intros i w w' Hi Ei. dobs Ei. unfold p_diag_vector, p_range. go. eapply run_pfor_buf; [|exact Ei].
    cbv beta. intros j s s' Hj Ej. apply bind_ok in Ej. destruct Ej as (c & Ec & Ej). go.
    destruct (i =? c); [dobs Ej; go; reflexivity|]. injection Ej as <-. reflexivity.
Qed.

(** C = a*A*B + b*C, scalar code path: iterations over columns *)
Theorem C39_crs_dense_matmul (a b : F) (A : crs F) (B C C' : dense F) (m : mem F) (bA bB bC : nat) :
  rd m bA = Ok (m_val A) -> rd m bB = Ok (d_val B) -> rd m bC = Ok (d_val C) -> bA <> bC -> bB <> bC ->
  crs_dense_matmul_scalar a A B b C = Ok C' ->
  par_result (d_col B) (p_matmul_scalar a A (d_first B) b (d_first C) (d_col B) bA bB bC) m (upd m bC (d_val C')).
Proof.
  intros HA HB HC NA NB E. assert (Hb : bC < length m) by eauto. unfold crs_dense_matmul_scalar in E. cbv zeta in E. dobs E. injection E as <-. cbn [d_val d_set_val].
  eapply par_buf; [| exact HC | | eassumption].
  - set (cellj := fun j p => exists i, p = (bC, d_first C + (i * d_col B + j))).
    exists (fun j p => fst p = bA \/ fst p = bB \/ cellj j p), cellj. split.
    + intros j Hj. unfold p_matmul_scalar. apply fp_pfor. intros i s Hi. apply fp_range. intros lo hi _ _. apply fp_bind.
      * apply fp_pfor. intros k t Hk. cbn. split; auto. intros v. apply fp_plift_bind. intros c _. cbn. auto.
      * intros t. assert (cellj j (bC, d_first C + (i * d_col B + j))) by (exists i; auto). cbn. auto.
    + intros j j' p Hj Hj' Hjj (i & ->).
      assert (~ cellj j' (bC, d_first C + (i * d_col B + j))).
      { intros (i' & Ei). injection Ei as Ei. apply Hjj. assert (i = i') by nia. subst. lia. }
      cbn. split; [intuition congruence|auto].
  - cbv beta. intros j w w' Hj Ei. unfold p_matmul_scalar. eapply run_pfor_buf; [|exact Ei].
    cbv beta. intros i s s' Hi Ej. dobs Ej. unfold p_range. go. rewrite run_pbind. erewrite run_pfor_loc; [| |eassumption].
    + go. reflexivity.
    + cbv beta. intros k t t' Hk Ek. dobs Ek. go. now injection Ek as <-.
Qed.
(** C = a*A*B + b*C, AVX code paths: a parallel loop that scales C, then a parallel loop over the rows *)
Lemma matmul_avx entry lentry : entry_fp entry -> entry_sim entry lentry ->
  forall (a b : F) (A : crs F) (B C C' : dense F) (m : mem F) (bA bB bC : nat),
  rd m bA = Ok (m_val A) -> rd m bB = Ok (d_val B) -> rd m bC = Ok (d_val C) -> bA <> bC -> bB <> bC ->
  crs_dense_matmul_avx lentry a A B b C = Ok C' ->
  exists m1, par_result (m_row A * d_col B) (p_scale b (d_first C) bC) m m1 /\
    par_result (m_row A) (p_matmul_avx entry a A (d_first B) (d_first C) (d_col B) bA bB bC) m1 (upd m bC (d_val C')).
Proof.
  intros HF HS a b A B C C' m bA bB bC HA HB HC NA NB E. assert (Hb : bC < length m) by eauto. unfold crs_dense_matmul_avx in E. cbv zeta in E.
  dobs E. injection E as <-. cbn [d_val d_set_val].
  match goal with H : for_ 0 (m_row A * d_col B) _ _ = Ok ?v1', H' : for_ 0 (m_row A) _ _ = Ok ?v2' |- _ =>
    clear E1 E2; rename H into E1; rename H' into E2; set (v1 := v1') in *; set (v2 := v2') in * end.
  exists (upd m bC v1). split.
  - eapply par_buf; [| exact HC | | exact E1].
    + exists (fun i p => p = (bC, d_first C + i)), (fun i p => p = (bC, d_first C + i)). split.
      * intros i Hi. cbn. auto.
      * intros i j p _ _ Hij ->. split; intros Ej; injection Ej; lia.
    + cbv beta. intros i w w' Hi Ei. dobs Ei. unfold p_scale. go. reflexivity.
  - rewrite <- (upd_upd m bC v1 v2). eapply par_buf; [| | |exact E2].
    + set (cl := fun i => row_cells bC (d_first C + i * d_col B) (d_col B)).
      exists (fun i p => fst p = bA \/ fst p = bB \/ cl i p), cl. split.
      * intros i Hi. unfold p_matmul_avx. apply fp_range. intros lo hi _ _. apply fp_pfor. intros k s Hk.
        apply fp_plift_bind. intros c _. cbn [fp]. split; [auto|]. intros p. apply HF; [auto|].
        intros l Hl. assert (cl i (bC, d_first C + i * d_col B + l)) by (exists l; auto). auto.
      * intros i i' p Hi Hi' Hij (l & -> & Hl).
        assert (~ cl i' (bC, d_first C + i * d_col B + l)).
        { intros (l' & El & Hl'). injection El as El. apply Hij. nia. }
        cbn [fst]. split; [intuition congruence|auto].
    + apply rd_lt_nth; [now rewrite upd_length|]. intros d. now apply nth_upd_same.
    + cbv beta. intros i w w' Hi Ei. dobs Ei. rewrite !upd_upd. unfold p_matmul_avx, p_range. go. eapply run_pfor_buf; [|exact Ei].
      cbv beta. intros k s s' Hk Ek. dobs Ek. go. eapply HS; eauto.
Qed.
Theorem C39_crs_dense_matmul_avx_double (a b : F) (A : crs F) (B C C' : dense F) (m : mem F) (bA bB bC : nat) :
  rd m bA = Ok (m_val A) -> rd m bB = Ok (d_val B) -> rd m bC = Ok (d_val C) -> bA <> bC -> bB <> bC ->
  crs_dense_matmul_avx avx_entry_double a A B b C = Ok C' ->
  exists m1, par_result (m_row A * d_col B) (p_scale b (d_first C) bC) m m1 /\
    par_result (m_row A) (p_matmul_avx p_entry_double a A (d_first B) (d_first C) (d_col B) bA bB bC) m1 (upd m bC (d_val C')).
Proof. apply matmul_avx; [apply fp_entry_double|apply sim_entry_double]. Qed.
Theorem C39_crs_dense_matmul_avx_float (a b : F) (A : crs F) (B C C' : dense F) (m : mem F) (bA bB bC : nat) :
  rd m bA = Ok (m_val A) -> rd m bB = Ok (d_val B) -> rd m bC = Ok (d_val C) -> bA <> bC -> bB <> bC ->
  crs_dense_matmul_avx avx_entry_float a A B b C = Ok C' ->
  exists m1, par_result (m_row A * d_col B) (p_scale b (d_first C) bC) m m1 /\
    par_result (m_row A) (p_matmul_avx p_entry_float a A (d_first B) (d_first C) (d_col B) bA bB bC) m1 (upd m bC (d_val C')).
Proof. apply matmul_avx; [apply fp_entry_float|apply sim_entry_float]. Qed.

(** diag(A), A(:,c) into a vector: the zero fill, then a loop over the rows *)
Lemma pick_par (t : nat -> nat) (A : crs F) (n : nat) (vec vec' : list F) (m : mem F) (bA b : nat) :
  rd m bA = Ok (m_val A) -> rd m b = Ok vec -> bA <> b -> length vec = n ->
  (vec <- for_ 0 n (fun i w => wr w i f0) vec ;;
   for_ 0 n (fun i w =>
    lo <- rd (m_rp A) i ;; hi <- rd (m_rp A) (i + 1) ;;
    for_ lo hi (fun j w => c <- rd (m_ci A) j ;; if t i =? c then x <- rd (m_val A) j ;; wr w i x else Ok w) w) vec) = Ok vec' ->
  exists m1, par_result n (p_zero b) m m1 /\
    par_result n (fun i => p_range A i (fun lo hi => pfor lo hi (fun j _ =>
      c <~ plift (rd (m_ci A) j) ;; if t i =? c then x <-- (bA, j) ;; (b, i) <== x ;; Ret tt else Ret tt) tt)) m1 (upd m b vec').
Proof.
  intros HA Hv NA HL E. assert (Hb : b < length m) by eauto. apply bind_ok in E. destruct E as (v1 & E1 & E).
  exists (upd m b v1). split.
  - eapply par_buf; [| exact Hv | | exact E1].
    + exists (fun _ _ => False), (fun i p => p = (b, i)). split.
      * intros i Hi. cbn. auto.
      * intros i j p _ _ Hij ->. split; [auto|congruence].
    + cbv beta. intros i w w' Hi Ei. unfold p_zero. go. reflexivity.
  - rewrite <- (upd_upd m b v1 vec'). eapply par_buf; [| | |exact E].
    + exists (fun _ p => fst p = bA), (fun i p => p = (b, i)). split.
      * intros i Hi. apply fp_range. intros lo hi _ _. apply fp_pfor. intros j s Hj. apply fp_plift_bind. intros c _.
        destruct (t i =? c); cbn; auto.
      * intros i j p _ _ Hij ->. cbn. split; congruence.
    + apply rd_lt_nth; [now rewrite upd_length|]. intros d. now apply nth_upd_same.
    + cbv beta. intros i w w' Hi Ei. dobs Ei. rewrite !upd_upd. unfold p_range. go. eapply run_pfor_buf; [|exact Ei].
      cbv beta. intros j s s' Hj Ej. apply bind_ok in Ej. destruct Ej as (c & Ec & Ej). go.
      destruct (t i =? c); [dobs Ej; go; reflexivity|]. injection Ej as <-. reflexivity.
Qed.
Theorem C39_crs_getdiag (A : crs F) (vec vec' : list F) (m : mem F) (bA b : nat) :
  rd m bA = Ok (m_val A) -> rd m b = Ok vec -> bA <> b -> crs_diag A vec = Ok vec' ->
  exists m1, par_result (length vec) (p_zero b) m m1 /\ par_result (length vec) (p_getdiag A bA b) m1 (upd m b vec').
Proof.
  intros HA Hv NA E. unfold crs_diag in E. cbv zeta in E. apply bind_ok in E. destruct E as (? & Ea & E). apply assert_eqb in Ea.
  rewrite Ea in E. exact (@pick_par (fun i => i) A (length vec) vec vec' m bA b HA Hv NA eq_refl E).
Qed.
Theorem C39_crs_getcol (A : crs F) (c : nat) (vec vec' : list F) (m : mem F) (bA b : nat) :
  rd m bA = Ok (m_val A) -> rd m b = Ok vec -> bA <> b -> crs_getcol A c vec = Ok vec' ->
  exists m1, par_result (length vec) (p_zero b) m m1 /\ par_result (length vec) (p_getcol A c bA b) m1 (upd m b vec').
Proof.
  intros HA Hv NA E. unfold crs_getcol in E. cbv zeta in E. apply bind_ok in E. destruct E as (? & Ea & E). apply assert_eqb in Ea.
  rewrite Ea in E. exact (@pick_par (fun i => c) A (length vec) vec vec' m bA b HA Hv NA eq_refl E).
Qed.
(** A(r,:) into a vector, when no column occurs twice in the row *)
Theorem C39_crs_getrow_partial (A : crs F) (r lo hi : nat) (vec vec' : list F) (m : mem F) (bA b : nat) :
  rd m bA = Ok (m_val A) -> rd m b = Ok vec -> bA <> b ->
  rd (m_rp A) r = Ok lo -> rd (m_rp A) (r + 1) = Ok hi ->
  (forall j j' c, lo <= j < hi -> lo <= j' < hi -> rd (m_ci A) j = Ok c -> rd (m_ci A) j' = Ok c -> j = j') ->
  crs_getrow A r vec = Ok vec' ->
  exists m1, par_result (length vec) (p_zero b) m m1 /\ par_result (hi - lo) (p_getrow A lo bA b) m1 (upd m b vec').
Proof.
  intros HA Hv NA R1 R2 HD E. assert (Hb : b < length m) by eauto. unfold crs_getrow in E. cbv zeta in E. apply bind_ok in E.
  destruct E as (? & Ea & E). apply assert_eqb in Ea. rewrite Ea in E. apply bind_ok in E. destruct E as (v1 & E1 & E).
  rewrite R1, R2 in E. cbn [bind] in E. rewrite for_shift in E. exists (upd m b v1). split.
  - eapply par_buf; [| exact Hv | | exact E1].
    + exists (fun _ _ => False), (fun i p => p = (b, i)). split.
      * intros i Hi. cbn. auto.
      * intros i j p _ _ Hij ->. split; [auto|congruence].
    + cbv beta. intros i w w' Hi Ei. unfold p_zero. go. reflexivity.
  - rewrite <- (upd_upd m b v1 vec'). eapply par_buf; [| | |exact E].
    + exists (fun _ p => fst p = bA), (fun n p => exists c, p = (b, c) /\ rd (m_ci A) (lo + n) = Ok c). split.
      * intros n Hn. unfold p_getrow. apply fp_plift_bind. intros c Ec. cbn. split; [auto|]. intros _. split; [|exact I]. exists c. auto.
      * intros i j p Hi Hj Hij (c & -> & Ec). cbn. split; [auto|]. intros (c' & Ec' & Ej). injection Ec' as <-. apply Hij.
        assert (lo + i = lo + j) by (apply (HD _ _ c); auto; lia). lia.
    + apply rd_lt_nth; [now rewrite upd_length|]. intros d. now apply nth_upd_same.
    + cbv beta. intros i w w' Hi Ei. dobs Ei. rewrite !upd_upd. unfold p_getrow. go. reflexivity.
Qed.
End C39.

Print Assumptions C39_crs_matvec.
Print Assumptions C39_zero_fill.
Print Assumptions C39_crs_times_row.
Print Assumptions C39_crs_times_col.
Print Assumptions C39_crs_times_row_line.
Print Assumptions C39_crs_times_col_line.
Print Assumptions C39_crs_diag_scalar.
Print Assumptions C39_crs_diag_vector.
Print Assumptions C39_crs_dense_matmul.
Print Assumptions C39_crs_dense_matmul_avx_double.
Print Assumptions C39_crs_dense_matmul_avx_float.
Print Assumptions C39_crs_getdiag.
Print Assumptions C39_crs_getcol.
Print Assumptions C39_crs_getrow_partial.

(** ** Running a given interleaving: entry [t] of the schedule is the thread that makes the next access *)
Section Exec.
Context {F : Type} {SF : Scalar F}.
Definition exec1 (t : nat) (c : mem F * list (prog F unit)) : res (mem F * list (prog F unit)) :=
  let '(m, l) := c in
  p <- rd l t ;;
  match p with
  | Ld q k => v <- ld m q ;; Ok (m, upd l t (k v))
  | St q v k => m' <- st m q v ;; Ok (m', upd l t k)
  | _ => UB
  end.
Fixpoint exec (s : list nat) (c : mem F * list (prog F unit)) : res (mem F * list (prog F unit)) :=
  match s with [] => Ok c | t :: s' => c' <- exec1 t c ;; exec s' c' end.
Lemma upd_mid {A} (l1 l2 : list A) a b : upd (l1 ++ a :: l2) (length l1) b = l1 ++ b :: l2.
Proof. induction l1; cbn; f_equal; auto. Qed.
Lemma exec1_step t c c' : exec1 t c = Ok c' -> pstep c c'.
Proof.
  destruct c as [m l]. unfold exec1. intros E. apply bind_ok in E. destruct E as (p & Ep & E).
  assert (exists l1 l2, l = l1 ++ p :: l2 /\ length l1 = t) as (l1 & l2 & -> & <-).
  { apply rd_Ok in Ep. destruct Ep as [L N]. specialize (N p). destruct (nth_split l p L) as (l1 & l2 & E1 & E2).
    rewrite N in E1. eauto. }
  destruct p; try discriminate E; apply bind_ok in E; destruct E as (v' & E1 & E); injection E as <-; rewrite upd_mid; now constructor.
Qed.
Lemma exec_steps s : forall c c', exec s c = Ok c' -> psteps (length s) c c'.
Proof.
  induction s as [|t s IH]; intros c c' E; cbn in *; [injection E as <-; constructor|].
  apply bind_ok in E. destruct E as (c1 & E1 & E). econstructor; [eapply exec1_step; eauto|auto].
Qed.
Lemma exec_par N (body : nat -> prog F unit) d s m m' l : distribution N d -> exec s (m, threads body d) = Ok (m', l) -> finished l ->
  par_for N body m m'.
Proof. intros HD E HF. exists d, (length s), l. split; auto. split; auto. now apply exec_steps. Qed.
End Exec.

(** ** row of a CRS matrix with a repeated column: the result depends on the schedule *)
Theorem C39_crs_getrow_refuted :
  exists (A : crs Z) (vec : list Z) (m m1 m2 : mem Z) (bA b lo hi : nat),
    crs_of_arrays 1 1 2 [0; 2] [0; 0] [5; 7]%Z = Ok A /\ crs_readable A /\
    rd m bA = Ok (m_val A) /\ rd m b = Ok vec /\ bA <> b /\
    rd (m_rp A) 0 = Ok lo /\ rd (m_rp A) 1 = Ok hi /\
    crs_getrow A 0 vec = Ok [7%Z] /\
    par_for (hi - lo) (p_getrow A lo bA b) m m1 /\ nth b m1 [] = [7%Z] /\
    par_for (hi - lo) (p_getrow A lo bA b) m m2 /\ nth b m2 [] = [5%Z].
Proof.
  eexists. exists [0%Z], [[5; 7]; [0]]%Z, [[5; 7]; [7]]%Z, [[5; 7]; [5]]%Z, 0, 1, 0, 2.
  split; [vm_compute; reflexivity|]. split.
  { apply crs_ok_readable. unfold crs_ok, rpn, cin; cbn. repeat split; auto; intros i Hi; destruct i as [|[|i]]; cbn; lia. }
  do 2 (split; [reflexivity|]). split; [discriminate|]. do 3 (split; [vm_compute; reflexivity|]).
  split; [|split; [reflexivity|split; [|reflexivity]]].
  - apply (@exec_par Z _ _ [[0]; [1]] [0; 0; 1; 1] _ _ [Ret tt; Ret tt]); [apply Permutation_refl|vm_compute; reflexivity|repeat constructor].
  - apply (@exec_par Z _ _ [[0]; [1]] [1; 1; 0; 0] _ _ [Ret tt; Ret tt]); [apply Permutation_refl|vm_compute; reflexivity|repeat constructor].
Qed.
Print Assumptions C39_crs_getrow_refuted.

(** ** diag of a LinearOperator into a view1D: the shared unit vector makes the result wrong under some schedule *)
Definition lin22 (i k : nat) : Z := match i, k with 0, 0 => 1%Z | 0, _ => 10%Z | _, 0 => 100%Z | _, _ => 2%Z end.
Theorem C39_linearoperator_diag_view_refuted :
  exists (m m1 m2 : mem Z) (bt b : nat),
    seq_for 2 (p_linop_diag lin22 2 bt b) m = Ok m1 /\ nth b m1 [] = [lin22 0 0; lin22 1 1] /\
    par_for 2 (p_linop_diag lin22 2 bt b) m m2 /\ nth b m2 [] = [11; 102]%Z.
Proof.
  exists [[0; 0]; [0; 0]]%Z, [[0; 0]; [1; 2]]%Z, [[0; 0]; [11; 102]]%Z, 0, 1.
  split; [vm_compute; reflexivity|]. split; [reflexivity|]. split; [|reflexivity].
  apply (@exec_par Z _ _ [[0]; [1]] [0; 1; 0; 0; 1; 1; 0; 1; 0; 1] _ _ [Ret tt; Ret tt]);
    [apply Permutation_refl|vm_compute; reflexivity|repeat constructor].
Qed.
Print Assumptions C39_linearoperator_diag_view_refuted.

(** ** operator== : several threads may store into the one shared flag.  This is a data race; with
    sequentially consistent accesses it is harmless, because all of them store the same value. *)
Theorem C39_vequal_race_refuted : ~ race_free 2 (@p_vequal Z _ 0 1 2).
Proof.
  intros (R & W & H & D).
  assert (G : forall i, i < 2 -> W i (2, 0)).
  { intros i Hi. specialize (H i Hi). cbn in H. destruct H as [_ H]. specialize (H 0%Z). destruct H as [_ H]. specialize (H 1%Z).
    cbn in H. now destruct H. }
  destruct (D 0 1 (2, 0)) as [_ N]; auto.
Qed.
Print Assumptions C39_vequal_race_refuted.

Section Vequal.
Context {F : Type} {SF : Scalar F}.
Variables (m0 : mem F) (ba by_ bans : nat) (x y : list F).
Hypotheses (Hx : rd m0 ba = Ok x) (Hy : rd m0 by_ = Ok y) (Hans : bans < length m0) (Nx : ba <> bans) (Ny : by_ <> bans).

Definition differ (i : nat) : Prop := feqb (nth i y f0) (nth i x f0) = false.
Let body := @p_vequal F SF ba by_ bans.
(** what a thread has left: the iterations [its] *)
Inductive pend : list nat -> prog F unit -> Prop :=
| pend_0 its : pend its (pseq (map body its))
| pend_1 i its : pend (i :: its) (Ld (ba, i) (fun a => pbind (if feqb (nth i y f0) a then Ret tt else (bans, 0) <== f0 ;; Ret tt) (fun _ => pseq (map body its))))
| pend_2 i its : differ i -> pend (i :: its) (St (bans, 0) f0 (pseq (map body its))).

Definition vinv (N : nat) (one : F) (c : mem F * list (prog F unit)) : Prop :=
  exists P ans, fst c = upd m0 bans [ans] /\ Forall2 pend P (snd c) /\ (forall i, In i (concat P) -> i < N) /\
    ((ans = one /\ (forall i, i < N -> ~ In i (concat P) -> ~ differ i)) \/ (ans = f0 /\ exists i, i < N /\ differ i)).

Lemma Forall2_mid {A B} (R : A -> B -> Prop) P l1 b l2 : Forall2 R P (l1 ++ b :: l2) ->
  exists P1 a P2, P = P1 ++ a :: P2 /\ Forall2 R P1 l1 /\ R a b /\ Forall2 R P2 l2.
Proof.
  intros H. apply Forall2_app_inv_r in H. destruct H as (P1 & P' & H1 & H2 & ->). inversion H2; subst.
  exists P1, x0, l. auto.
Qed.
Lemma put_mid {A B} (R : A -> B -> Prop) P1 a P2 l1 b l2 : Forall2 R P1 l1 -> R a b -> Forall2 R P2 l2 ->
  Forall2 R (P1 ++ a :: P2) (l1 ++ b :: l2).
Proof. intros. apply Forall2_app; auto. Qed.

Lemma vinv_step N one c c' : vinv N one c -> pstep c c' -> vinv N one c'.
Proof.
  intros (P & ans & E & HP & HN & HA) S. destruct S as [m l1 l2 p k v HL|m m' l1 l2 p v k HS]; cbn [fst snd] in *; subst m.
  - apply Forall2_mid in HP. destruct HP as (P1 & its & P2 & -> & H1 & H & H2).
    remember (Ld p k) as q eqn:Eq. destruct H as [its|i its|i its Hd].
    + destruct its as [|i its]; [discriminate Eq|]. cbn [map pseq] in Eq. unfold body at 1, p_vequal in Eq. cbn [pbind] in Eq.
      injection Eq as <- <-. rewrite (@ld_put_other _ m0 bans [ans] by_ y i Ny Hy) in HL. apply rd_Ok in HL. destruct HL as [_ HL]. specialize (HL f0).
      exists (P1 ++ (i :: its) :: P2), ans. cbn [fst snd]. split; auto. split; [|auto]. apply put_mid; auto. rewrite <- HL. apply pend_1.
    + injection Eq as <- <-. rewrite (@ld_put_other _ m0 bans [ans] ba x i Nx Hx) in HL. apply rd_Ok in HL. destruct HL as [_ HL]. specialize (HL f0).
      destruct (feqb (nth i y f0) v) eqn:Ev; cbn [pbind].
      * exists (P1 ++ its :: P2), ans. cbn [fst snd]. split; auto. split; [apply put_mid; auto; apply pend_0|]. split.
        { intros j Hj. apply HN. rewrite concat_app in *. cbn [concat] in *. rewrite !in_app_iff in *. cbn [In]. tauto. }
        destruct HA as [[-> HA]|HA]; [left|auto]. split; auto. intros j Hj Hn Hd. destruct (Nat.eq_dec j i) as [->|Hne].
        { unfold differ in Hd. rewrite HL in Hd. congruence. }
        apply (HA j Hj); auto. rewrite concat_app in *. cbn [concat] in *. rewrite !in_app_iff in *. cbn [In].
        intros [J|[[J|J]|J]]; [tauto|congruence|tauto|tauto].
      * exists (P1 ++ (i :: its) :: P2), ans. cbn [fst snd]. split; auto. split; [|auto]. apply put_mid; auto. apply pend_2.
        unfold differ. now rewrite HL.
    + discriminate Eq.
  - apply Forall2_mid in HP. destruct HP as (P1 & its & P2 & -> & H1 & H & H2).
    remember (St p v k) as q eqn:Eq. destruct H as [its|i its|i its Hd]; [destruct its; discriminate Eq|discriminate Eq|].
    injection Eq as <- <- <-. rewrite (@st_put _ m0 bans [ans] 0 f0 [f0]) in HS by auto. injection HS as <-.
    exists (P1 ++ its :: P2), f0. cbn [fst snd]. split; auto. split; [apply put_mid; auto; apply pend_0|].
    assert (HN' : i < N). { apply HN. rewrite concat_app. cbn [concat]. rewrite !in_app_iff. cbn [In]. tauto. }
    split; [|right; eauto].
    intros j Hj. apply HN. rewrite concat_app in *. cbn [concat] in *. rewrite !in_app_iff in *. cbn [In]. tauto.
Qed.
Lemma vinv_steps N one n c c' : psteps n c c' -> vinv N one c -> vinv N one c'.
Proof. induction 1; auto. intros H1. apply IHpsteps. eapply vinv_step; eauto. Qed.
Lemma vinv_end N one m l : finished l -> vinv N one (m, l) -> exists ans, m = upd m0 bans [ans] /\
  ((ans = one /\ forall i, i < N -> ~ differ i) \/ (ans = f0 /\ exists i, i < N /\ differ i)).
Proof.
  intros HF (P & ans & E & HP & _ & HA). cbn [fst snd] in *. exists ans. split; auto. destruct HA as [[-> HA]|HA]; auto. left. split; auto.
  assert (HC : concat P = []).
  { clear HA. induction HP as [|its c P l H HP IH]; auto. inversion HF as [|? ? Ec HF']; subst. cbn [concat]. rewrite IH by auto.
    rewrite app_nil_r. inversion H as [its' Eits Ec|i its' Eits Ec|i its' Hd Eits Ec]; subst. destruct its as [|i its]; auto. discriminate Ec. }
  intros i Hi. apply HA; auto. rewrite HC. auto.
Qed.
Lemma vequal_all N one m : rd m0 bans = Ok [one] -> par_for N body m0 m ->
  exists ans, m = upd m0 bans [ans] /\ ((ans = one /\ forall i, i < N -> ~ differ i) \/ (ans = f0 /\ exists i, i < N /\ differ i)).
Proof.
  intros H1 (d & n & l & HD & HS & HF). eapply vinv_end; [exact HF|]. eapply vinv_steps; [exact HS|].
  assert (HI : forall i, In i (concat d) <-> i < N).
  { intros i. split; intros Hi.
    - apply (Permutation_in _ HD) in Hi. apply in_seq in Hi. lia.
    - apply (Permutation_in _ (Permutation_sym HD)). apply in_seq. lia. }
  exists d, one. cbn [fst snd]. split; [now rewrite upd_id|]. split.
  - unfold threads. clear. induction d; constructor; auto. apply pend_0.
  - split; [intros i; apply HI|]. left. split; auto. intros i Hi Hn. exfalso. apply Hn. now apply HI.
Qed.
End Vequal.

(** Comparison of [N] elements, cell (bans,0) holding [f1] for true and [f0] for false: whatever the schedule, the
    flag ends as "all elements equal" (x[i] == y[i] is C++ comparison of the floats). *)
Theorem C39_vequal_partial {F} {SF : Scalar F} (m m' : mem F) (ba by_ bans N : nat) (x y : list F) :
  rd m ba = Ok x -> rd m by_ = Ok y -> rd m bans = Ok [f1] -> ba <> bans -> by_ <> bans ->
  par_for N (p_vequal ba by_ bans) m m' ->
  m' = upd m bans [if forallb (fun i => feqb (nth i y f0) (nth i x f0)) (seq 0 N) then f1 else f0].
Proof.
  intros Hx Hy Ha Nx Ny H. destruct (@vequal_all F SF m ba by_ bans x y Hx Hy (rd_lt_len _ _ Ha) Nx Ny N f1 m' Ha H) as (ans & -> & HA).
  f_equal. f_equal. destruct HA as [[-> HA]|[-> (i & Hi & Hd)]].
  - replace (forallb _ _) with true; auto. symmetry. apply forallb_forall. intros i Hi. apply in_seq in Hi.
    specialize (HA i ltac:(lia)). unfold differ in HA. now destruct (feqb _ _).
  - replace (forallb _ _) with false; auto. symmetry. apply not_true_is_false. intros HT. rewrite forallb_forall in HT.
    unfold differ in Hd. rewrite HT in Hd; [discriminate|]. apply in_seq. lia.
Qed.
Print Assumptions C39_vequal_partial.
Example C39_vequal_example : exists m',
  par_for 2 (@p_vequal Z _ 0 1 2) [[3; 4]; [5; 6]; [1]]%Z m' /\ nth 2 m' [] = [0%Z].
Proof.
  exists [[3; 4]; [5; 6]; [0]]%Z. split; [|reflexivity].
  apply (@exec_par Z _ _ [[1]; [0]] [0; 1; 0; 1; 0; 1] _ _ [Ret tt; Ret tt]); [repeat constructor|vm_compute; reflexivity|repeat constructor].
Qed.

(** ** concrete cases for the hypotheses *)
Definition exA : crs Z := Eval vm_compute in match crs_of_arrays 2 2 3 [0; 2; 3] [0; 1; 1] [1; 2; 3]%Z with Ok a => a | _ => mkCrs 0 0 [] [] [] 0 0 0 true 0%N end.
Lemma exA_readable : crs_readable exA.
Proof. apply crs_ok_readable. unfold crs_ok, rpn, cin; cbn. repeat split; auto; intros i Hi; destruct i as [|[|[|i]]]; cbn; lia. Qed.
Example C39_example_matvec : par_result 2 (p_matvec exA 0 1 2) [[1; 2; 3]; [10; 20]; [7; 7]]%Z [[1; 2; 3]; [10; 20]; [50; 60]]%Z.
Proof. exact (@C39_crs_matvec Z _ exA [10; 20]%Z [7; 7]%Z [50; 60]%Z [[1; 2; 3]; [10; 20]; [7; 7]]%Z 0 1 2 eq_refl eq_refl eq_refl ltac:(discriminate) ltac:(discriminate) eq_refl). Qed.
Example C39_example_times : par_result 2 (p_times_row exA 0 0 1 2) [[1; 2; 3]; [10; 20]; [1; 2; 3]]%Z [[1; 2; 3]; [10; 20]; [10; 40; 60]]%Z.
Proof.
  exact (@C39_crs_times_row Z _ exA exA (m_set_val exA [10; 40; 60]%Z) [10; 20]%Z [[1; 2; 3]; [10; 20]; [1; 2; 3]]%Z 0 1 2 exA_readable eq_refl eq_refl eq_refl
    ltac:(discriminate) ltac:(discriminate) eq_refl).
Qed.
Example C39_example_diag_add : par_result 2 (p_diag_vector Z.add exA 0 1) [[1; 2; 3]; [10; 20]]%Z [[11; 2; 23]; [10; 20]]%Z.
Proof.
  exact (@C39_crs_diag_vector Z _ Z.add exA (m_set_val exA [11; 2; 23]%Z) [10; 20]%Z [[1; 2; 3]; [10; 20]]%Z 0 1 exA_readable eq_refl eq_refl
    ltac:(discriminate) eq_refl).
Qed.
Example C39_example_getrow : exists m1, par_result 2 (p_zero 1) [[1; 2; 3]; [7; 7]]%Z m1 /\
  par_result 2 (p_getrow exA 0 0 1) m1 [[1; 2; 3]; [1; 2]]%Z.
Proof.
  apply (@C39_crs_getrow_partial Z _ exA 0 0 2 [7; 7]%Z [1; 2]%Z [[1; 2; 3]; [7; 7]]%Z 0 1); try reflexivity; [discriminate|].
  intros [|[|j]] [|[|j']] c H1 H2 E1 E2; try lia; cbn in *; congruence.
Qed.
