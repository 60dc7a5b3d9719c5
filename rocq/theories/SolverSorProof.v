(** * SolverSorProof: the SOR kernels (proof support for C36). *)
From Coq Require Import Ring.
From Verif Require Import Base Scalar Spec SumFacts Loops DenseModel Observe CrsModel CrsObserve CrsProof CrsBlasProof
  SolverModel SolverSpec SolverProof.
Set Implicit Arguments.

Section Sor.
Context {F : Type} {SF : Scalar F}.
Local Open Scope F_scope.
Hypothesis Hex : exact SF.
Let Hrt : ring_theory f0 f1 fadd fmul fsub fopp (@eq F) := Hex.
Add Ring FringSor : Hrt.

(** a forward sweep: row i of the loop body stores g x i, which looks at x below i only *)
Lemma forward_loop n (M : nat -> nat -> F) (D b x : list F) (row : nat -> list F -> res F) :
  length b = n -> length D = n -> length x = n ->
  (forall i x, (i < n)%nat -> length x = n -> row i x = Ok (fn b i - sum_n i (fun j => M i j * fn x j))) ->
  exists t, for_ 0 n (fun i x => tmp <- row i x ;; d <- rd D i ;; wr x i (tmp * d)) x = Ok t /\ length t = n /\
    solves_lower n M D b t.
Proof.
  intros Hb HD Hx Hrow.
  destruct (@for0_inv (list F) (fun k t => length t = n /\
      forall i, (i < k)%nat -> fn t i = (fn b i - sum_n i (fun j => M i j * fn t j)) * fn D i) n
    (fun i x => tmp <- row i x ;; d <- rd D i ;; wr x i (tmp * d)) x) as (t & E & HL & HN).
  - split; auto. intros i Hi. lia.
  - intros k t Hk [HL HN]. rewrite Hrow by auto. cbn [bind]. rewrite (@rd_lt F D k f0) by lia. cbn [bind].
    rewrite wr_lt by lia. eexists; split; [reflexivity|]. split; [now rewrite upd_length|].
    intros i Hi. unfold fn at 1. destruct (Nat.eq_dec i k) as [ -> |Hne].
    + rewrite nth_upd_same by lia. f_equal. f_equal. apply sum_ext. intros j Hj. f_equal.
      unfold fn. rewrite nth_upd_other by lia. auto.
    + rewrite nth_upd_other by lia. change (nth i t 0) with (fn t i). rewrite HN by lia.
      f_equal. f_equal. apply sum_ext. intros j Hj. f_equal. unfold fn. rewrite nth_upd_other by lia. auto.
  - exists t. auto.
Qed.

Lemma backward_loop n (M : nat -> nat -> F) (D y : list F) (row : nat -> list F -> res F) :
  length D = n -> length y = n ->
  (forall i x, (i < n)%nat -> length x = n -> row i x = Ok (sum_n n (fun j => if i <? j then M i j * fn x j else 0))) ->
  exists t, for_ 0 n (fun k x => let i := (n - 1 - k)%nat in
      tmp <- row i x ;; d <- rd D i ;; xi <- rd x i ;; wr x i (xi - tmp * d)) y = Ok t /\ length t = n /\
    solves_upper n M D y t.
Proof.
  intros HD Hx Hrow.
  destruct (@for0_inv (list F) (fun k t => length t = n /\
      (forall i, (i < n - k)%nat -> fn t i = fn y i) /\
      forall i, (n - k <= i < n)%nat -> fn t i = fn y i - sum_n n (fun j => if i <? j then M i j * fn t j else 0) * fn D i) n
    (fun k x => let i := (n - 1 - k)%nat in
      tmp <- row i x ;; d <- rd D i ;; xi <- rd x i ;; wr x i (xi - tmp * d)) y) as (t & E & HL & HK & HN).
  - split; auto. split; auto. intros i Hi. lia.
  - intros k t Hk (HL & HK & HN). cbv zeta. rewrite Hrow by lia. cbn [bind]. set (q := (n - 1 - k)%nat).
    rewrite (@rd_lt F D q f0) by lia. cbn [bind]. rewrite (@rd_lt F t q f0) by lia. cbn [bind].
    rewrite wr_lt by lia. eexists; split; [reflexivity|]. split; [now rewrite upd_length|]. split.
    + intros i Hi. unfold fn at 1. rewrite nth_upd_other by lia. apply HK. lia.
    + intros i Hi. unfold fn at 1. destruct (Nat.eq_dec i q) as [ -> |Hne].
      * rewrite nth_upd_same by lia. change (nth q t 0) with (fn t q). rewrite HK by lia. f_equal. f_equal.
        apply sum_ext. intros j Hj. destruct (Nat.ltb_spec q j); auto. f_equal.
        unfold fn. rewrite nth_upd_other by lia. auto.
      * rewrite nth_upd_other by lia. change (nth i t 0) with (fn t i). rewrite HN by lia.
        f_equal. f_equal. apply sum_ext. intros j Hj. destruct (Nat.ltb_spec i j); auto. f_equal.
        unfold fn. rewrite nth_upd_other by lia. auto.
  - exists t. split; auto. split; auto. intros i Hi. apply HN. lia.
Qed.

(** ** Dense *)
Definition dense_el (A : dense F) (i j : nat) : F := dense_fn A i j.

Lemma sub_loop (f : nat -> F) n a (body : nat -> F -> res F) :
  (forall j t, (j < n)%nat -> body j t = Ok (t - f j)) -> for_ 0 n body a = Ok (a - sum_n n f).
Proof.
  intros H. destruct (@for0_inv F (fun k t => t = a - sum_n k f) n body a) as (t & E & ->); auto.
  - cbn. ring.
  - intros k t Hk ->. rewrite H by auto. eexists; split; [reflexivity|]. cbn. ring.
Qed.

Lemma dense_idx (A : dense F) n i j : dense_ok A -> d_row A = n -> d_col A = n -> d_first A = 0%nat ->
  (i < n)%nat -> (j < n)%nat -> rd (d_val A) (i * d_col A + j) = Ok (dense_fn A i j).
Proof.
  intros (H1 & H2 & H3) Hr Hc Hf Hi Hj. unfold dense_fn. rewrite Hf. cbn [Nat.add].
  replace (d_col A * i + j)%nat with (i * d_col A + j)%nat by lia. apply rd_lt. rewrite H1. nia.
Qed.

Lemma sor_lower_dense_ok (A : dense F) n (D x b : list F) :
  dense_ok A -> d_row A = n -> d_col A = n -> d_first A = 0%nat -> length D = n -> length x = n -> length b = n ->
  exists t, sor_lower_dense A D x b = Ok t /\ length t = n /\ solves_lower n (dense_fn A) D b t.
Proof.
  intros W Hr Hc Hf HD Hx Hb. unfold sor_lower_dense. rewrite Hr.
  destruct (@forward_loop n (dense_fn A) D b x (fun i x =>
    tmp <- rd b i ;; for_ 0 i (fun j tmp => v <- rd (d_val A) (i * d_col A + j) ;; e <- rd x j ;; Ok (tmp - v * e)) tmp)) as (t & E & H); auto.
  - intros i x' Hi Hx'. rewrite (@rd_lt F b i f0) by lia. cbn [bind].
    apply (sub_loop (fun j => dense_fn A i j * fn x' j)). intros j t Hj.
    rewrite (@dense_idx A n) by (auto; lia). cbn [bind]. rewrite (@rd_lt F x' j f0) by lia. reflexivity.
  - exists t. split; auto. rewrite <- E. apply for_ext. intros i s Hi.
    destruct (rd b i); reflexivity.
Qed.

(** ** CRS *)
(** sum over the stored entries of row i whose column satisfies P *)
Lemma masked_row (A : crs F) i (P : nat -> bool) (x : nat -> F) : crs_ok A -> (i < m_row A)%nat ->
  fold_right (fun p t => (if P (fst p) then snd p * x (fst p) else 0) + t) 0 (crs_row A i) =
  sum_n (m_col A) (fun j => if P j then summed (crs_entries A) i j * x j else 0).
Proof.
  intros W Hi.
  pose proof (mv_summed Hex (fun j => if P j then x j else 0) i (crs_in_range W)) as H.
  rewrite wrow_filter, crs_entries_filter, fold_right_map in H by auto. unfold mv in H. cbn [fst snd] in H.
  transitivity (sum_n (m_col A) (fun j => summed (crs_entries A) i j * (if P j then x j else 0))).
  - rewrite H. generalize (crs_row A i). intros l. induction l as [|p l IH]; cbn; auto. rewrite IH. destruct (P (fst p)); ring.
  - apply sum_ext. intros j Hj. destruct (P j); ring.
Qed.

Lemma sum_below n i (f : nat -> F) : (i <= n)%nat ->
  sum_n n (fun j => if j <? i then f j else 0) = sum_n i f.
Proof.
  intros H. induction H as [|n H IH].
  - apply sum_ext. intros j Hj. now rewrite (proj2 (Nat.ltb_lt _ _) Hj).
  - cbn [sum_n]. rewrite IH. destruct (Nat.ltb_spec n i); [lia|]. ring.
Qed.

Lemma fold_sub_masked (P : nat -> bool) (x : nat -> F) l a :
  fold_left (fun t (p : nat * F) => if P (fst p) then t - snd p * x (fst p) else t) l a =
  a - fold_right (fun p t => (if P (fst p) then snd p * x (fst p) else 0) + t) 0 l.
Proof.
  revert a; induction l as [|p l IH]; intros a; cbn [fold_left fold_right]; [ring|]. rewrite IH. destruct (P (fst p)); ring.
Qed.
Lemma fold_add_masked (P : nat -> bool) (x : nat -> F) l a :
  fold_left (fun t (p : nat * F) => if P (fst p) then t + snd p * x (fst p) else t) l a =
  a + fold_right (fun p t => (if P (fst p) then snd p * x (fst p) else 0) + t) 0 l.
Proof.
  revert a; induction l as [|p l IH]; intros a; cbn [fold_left fold_right]; [ring|]. rewrite IH. destruct (P (fst p)); ring.
Qed.

(** with break at the first entry that is not below the diagonal *)
Lemma fold_break (P : nat -> bool) (x : nat -> F) (l : list (nat * F)) a :
  (forall p, In p l -> P (fst p) = false) ->
  fst (fold_left (fun (s : F * bool) (p : nat * F) =>
        if snd s then (fst s, true) else if P (fst p) then (fst s - snd p * x (fst p), false) else (fst s, true)) l a) = fst a.
Proof.
  intros H. revert a; induction l as [|p l IH]; intros [a s]; cbn [fold_left]; auto.
  rewrite IH by (intros; apply H; now right). destruct s; auto. rewrite H by now left. reflexivity.
Qed.

Lemma fold_break_stopped (P : nat -> bool) (x : nat -> F) (l : list (nat * F)) a :
  fst (fold_left (fun (s : F * bool) (p : nat * F) =>
        if snd s then (fst s, true) else if P (fst p) then (fst s - snd p * x (fst p), false) else (fst s, true)) l (a, true)) = a.
Proof. induction l as [|p l IH]; cbn [fold_left fst snd]; auto. Qed.

Lemma fold_break_sorted i (x : nat -> F) (l : list (nat * F)) a :
  increasing l ->
  fst (fold_left (fun (s : F * bool) (p : nat * F) =>
        if snd s then (fst s, true) else if fst p <? i then (fst s - snd p * x (fst p), false) else (fst s, true)) l (a, false)) =
  fold_left (fun t (p : nat * F) => if fst p <? i then t - snd p * x (fst p) else t) l a.
Proof.
  unfold increasing. revert a; induction l as [|p l IH]; intros a H; cbn [fold_left fst snd]; auto.
  inversion H as [|? ? H1 H2]; subst. destruct (Nat.ltb_spec (fst p) i).
  - now apply IH.
  - rewrite (fold_break_stopped (fun c => c <? i) x). clear -H2 H0. rewrite Forall_forall in H2.
    revert a; induction l as [|p' l IH]; intros a; cbn [fold_left]; auto.
    destruct (Nat.ltb_spec (fst p') i).
    + specialize (H2 (fst p')). cbn in H2. lia.
    + apply IH. intros y Hy. apply H2. cbn. auto.
Qed.

Lemma sor_lower_crs_ok (A : crs F) n (D x b : list F) :
  crs_ok A -> m_row A = n -> m_col A = n -> m_first A = 0%nat -> (forall i, (i < n)%nat -> increasing (crs_row A i)) ->
  length D = n -> length x = n -> length b = n ->
  exists t, sor_lower_crs A D x b = Ok t /\ length t = n /\ solves_lower n (summed (crs_entries A)) D b t.
Proof.
  intros W Hr Hc Hf Hs HD Hx Hb. unfold sor_lower_crs. rewrite Hr.
  destruct (@forward_loop n (summed (crs_entries A)) D b x (fun i x =>
    tmp <- rd b i ;; lo <- rd (m_rp A) i ;; hi <- rd (m_rp A) (i + 1) ;;
    '(tmp, _) <- for_ lo hi (fun j (s : F * bool) =>
        let (tmp, stop) := s in
        if stop then Ok (tmp, true) else
        cj <- rd (m_ci A) j ;;
        if cj <? i then v <- rd (m_val A) j ;; e <- rd x cj ;; Ok (tmp - v * e, false) else Ok (tmp, true)) (tmp, false) ;;
    Ok tmp)) as (t & E & H); auto.
  - intros i x' Hi Hx'. rewrite (@rd_lt F b i f0) by lia. cbn [bind]. rewrite !rd_rp by (auto; lia). cbn [bind].
    rewrite (@crs_row_fold F SF (F * bool) (fun (s : F * bool) (p : nat * F) =>
        if snd s then (fst s, true) else if fst p <? i then (fst s - snd p * fn x' (fst p), false) else (fst s, true))); auto; try lia.
    + cbn [bind]. rewrite (surjective_pairing (fold_left _ _ _)). f_equal.
      rewrite fold_break_sorted by auto. rewrite (fold_sub_masked (fun c => c <? i) (fn x')).
      rewrite (@masked_row A i (fun c => c <? i) (fn x')) by (auto; lia). rewrite Hc.
      rewrite (@sum_below n i (fun j => summed (crs_entries A) i j * fn x' j)) by lia. reflexivity.
    + intros k [t stop] Hk Hn. cbn [fst snd]. destruct stop; auto. rewrite rd_ci by auto. cbn [bind].
      destruct (Nat.ltb_spec (cin A k) i); auto. rewrite rd_val0 by auto. cbn [bind].
      rewrite (@rd_lt F x' (cin A k) f0) by lia. reflexivity.
  - exists t. split; auto. rewrite <- E. apply for_ext. intros i s Hi.
    destruct (rd b i); cbn [bind]; auto. destruct (rd (m_rp A) i); cbn [bind]; auto.
    destruct (rd (m_rp A) (i + 1)); cbn [bind]; auto. match goal with |- bind (for_ ?a ?b ?c ?d) _ = _ => destruct (for_ a b c d) as [[? ?]| | | |] end; reflexivity.
Qed.

Lemma sor_precond_crs_ok (A : crs F) n (D x b : list F) :
  crs_ok A -> m_row A = n -> m_col A = n -> m_first A = 0%nat ->
  length D = n -> length x = n -> length b = n ->
  exists y t, sor_precond_crs A D x b = Ok t /\ length y = n /\ length t = n /\
    solves_lower n (summed (crs_entries A)) D b y /\ solves_upper n (summed (crs_entries A)) D y t.
Proof.
  intros W Hr Hc Hf HD Hx Hb. unfold sor_precond_crs. rewrite Hr.
  destruct (@forward_loop n (summed (crs_entries A)) D b x (fun i x =>
    tmp <- rd b i ;; lo <- rd (m_rp A) i ;; hi <- rd (m_rp A) (i + 1) ;;
    for_ lo hi (fun j tmp =>
        cj <- rd (m_ci A) j ;;
        if cj <? i then v <- rd (m_val A) j ;; e <- rd x cj ;; Ok (tmp - v * e) else Ok tmp) tmp)) as (y & E & Hy & HY); auto.
  - intros i x' Hi Hx'. rewrite (@rd_lt F b i f0) by lia. cbn [bind]. rewrite !rd_rp by (auto; lia). cbn [bind].
    rewrite (@crs_row_fold F SF F (fun t p => if fst p <? i then t - snd p * fn x' (fst p) else t)); auto; try lia.
    + f_equal. rewrite (fold_sub_masked (fun c => c <? i) (fn x')).
      rewrite (@masked_row A i (fun c => c <? i) (fn x')) by (auto; lia). rewrite Hc.
      rewrite (@sum_below n i (fun j => summed (crs_entries A) i j * fn x' j)) by lia. reflexivity.
    + intros k t Hk Hn. cbn [fst snd]. rewrite rd_ci by auto. cbn [bind].
      destruct (Nat.ltb_spec (cin A k) i); auto. rewrite rd_val0 by auto. cbn [bind].
      rewrite (@rd_lt F x' (cin A k) f0) by lia. reflexivity.
  - destruct (@backward_loop n (summed (crs_entries A)) D y (fun i x =>
      lo <- rd (m_rp A) i ;; hi <- rd (m_rp A) (i + 1) ;;
      for_ lo hi (fun j tmp =>
        cj <- rd (m_ci A) j ;;
        if i <? cj then v <- rd (m_val A) j ;; e <- rd x cj ;; Ok (tmp + v * e) else Ok tmp) 0)) as (t & E2 & Ht & HT); auto.
    + intros i x' Hi Hx'. rewrite !rd_rp by (auto; lia). cbn [bind].
      rewrite (@crs_row_fold F SF F (fun t p => if i <? fst p then t + snd p * fn x' (fst p) else t)); auto; try lia.
      * f_equal. rewrite (fold_add_masked (fun c => i <? c) (fn x')).
        rewrite (@masked_row A i (fun c => i <? c) (fn x')) by (auto; lia). rewrite Hc. ring.
      * intros k t Hk Hn. cbn [fst snd]. pose proof (cin_lt W Hn) as Hcl. rewrite rd_ci by auto. cbn [bind].
        destruct (Nat.ltb_spec i (cin A k)); auto. rewrite rd_val0 by auto. cbn [bind].
        rewrite (@rd_lt F x' (cin A k) f0) by lia. reflexivity.
    + exists y, t. split; auto. rewrite <- E2. clear E2 HT.
      match goal with |- bind ?m _ = _ => replace m with (Ok y) end.
      * cbn [bind]. apply for_ext. intros i s Hi. cbv zeta.
        destruct (rd (m_rp A) (n - 1 - i)); cbn [bind]; auto. destruct (rd (m_rp A) (n - 1 - i + 1)); reflexivity.
      * rewrite <- E. apply for_ext. intros i s Hi.
        destruct (rd b i); cbn [bind]; auto. destruct (rd (m_rp A) i); cbn [bind]; auto.
        destruct (rd (m_rp A) (i + 1)); reflexivity.
Qed.
End Sor.

(** the Dense preconditioner kernel reads x[N] *)
Lemma sor_precond_dense_ub {F} {SF : Scalar F} (A : dense F) n (D x b : list F) :
  dense_ok A -> d_row A = n -> d_col A = n -> d_first A = 0 -> 1 <= n -> length D = n -> length x = n -> length b = n ->
  sor_precond_dense A D x b = UB.
Proof.
  intros W Hr Hc Hf Hn HD Hx Hb. unfold sor_precond_dense. rewrite Hr.
  match goal with |- bind ?m _ = _ => assert (E : exists y, m = Ok y /\ length y = n) end.
  - apply (@for0_inv (list F) (fun _ t => length t = n)); auto. intros i t Hi Ht.
    rewrite (@rd_lt F b i f0) by lia. cbn [bind].
    match goal with |- exists _, bind ?m _ = _ /\ _ => assert (E : exists y, m = Ok y /\ True) end.
    { apply (@for0_inv F (fun _ _ => True)); auto. intros j s Hj _.
      rewrite (@dense_idx F SF A n) by (auto; lia). cbn [bind]. rewrite (@rd_lt F t j f0) by lia. cbn [bind]. eauto. }
    destruct E as (s & -> & _). cbn [bind]. rewrite (@rd_lt F D i f0) by lia. cbn [bind].
    rewrite wr_lt by lia. eexists; split; [reflexivity|]. now rewrite upd_length.
  - destruct E as (y & -> & Hy). cbn [bind].
    destruct n as [|n]; [lia|].
    rewrite (@for_split (list F) 0 1 (S n)) by lia.
    match goal with |- bind ?m _ = _ => assert (E : m = UB) end; [|now rewrite E].
    unfold for_ at 1. cbn [Nat.sub iter_]. cbv zeta.
    replace (n - 0 - 0) with n by lia. rewrite Hc.
    replace (S n - n) with 1 by (destruct n; lia).
    match goal with |- bind (bind (for_ 0 1 ?f 0%F) _) _ = _ => assert (E : for_ 0 1 f 0%F = UB) end; [|now rewrite E].
    unfold for_. cbn [Nat.sub iter_]. cbv zeta. rewrite (@rd_ge F y) by lia.
    match goal with |- context [rd ?l ?k] => destruct (rd l k) eqn:E; cbn [bind]; auto; unfold rd in E; destruct (nth_error l k); discriminate end.
Qed.
