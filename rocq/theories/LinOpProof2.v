(** * LinOpProof2: conversions to and from operators, diagonal, exact arithmetic *)
From Verif Require Import Base Scalar Spec SumFacts DenseModel CooModel CrsModel CooMiscProof CrsMiscProof Observe CrsObserve SolverModel
  LinOpModel LinOpSpec LinOpProof Loops PropertiesCrs.
Set Implicit Arguments.

Section LinOpProof2.
Context {F : Type} {SF : Scalar F} {SC : Schedule}.

(** ** matvec of a Dense matrix: the row-wise sums, bit-exact *)
Lemma dense_matvec_ok (A : dense F) x y : dense_ok A -> length x = d_col A -> length y = d_row A ->
  dense_matvec A x y = Ok (map (fun i => fmul f1 (mv (d_col A) (dense_fn A) (fn x) i)) (seq 0 (d_row A))).
Proof.
  intros W Hx Hy. unfold dense_matvec. rewrite Hx, Hy, !Nat.eqb_refl. cbn [andb assert_ bind].
  destruct (@elem_loop F f0 (fun i _ => fmul f1 (mv (d_col A) (dense_fn A) (fn x) i)) 0 (d_row A) 0
   (fun i y => s <- for_ 0 (d_col A) (fun j s => a <- rd (d_val A) (d_first A + (i * d_col A + j)) ;; e <- rd x j ;; Ok (fadd s (fmul a e))) f0 ;;
    wr y i (fmul f1 s)) y) as (t & -> & HL & HN); try lia.
  - intros i t Hi HL.
    destruct (@for0_inv F (fun k s => s = sum_n k (fun j => fmul (dense_fn A i j) (fn x j))) (d_col A)
      (fun j s => a <- rd (d_val A) (d_first A + (i * d_col A + j)) ;; e <- rd x j ;; Ok (fadd s (fmul a e))) f0) as (s & -> & ->); auto.
    + intros j s Hj ->. destruct W as (W1 & W2 & W3).
      rewrite (@rd_lt F (d_val A) _ f0) by (rewrite W1; nia). cbn [bind]. rewrite (@rd_lt F x j f0) by lia. cbn [bind].
      eexists; split; [reflexivity|]. cbn [sum_n]. unfold dense_fn, fn. do 3 f_equal. lia.
    + cbn [bind]. apply wr_lt. lia.
  - f_equal. apply list_ext with (d := f0); [now rewrite map_length, seq_length, HL|].
    intros k Hk. rewrite HN. rewrite nth_map_seq by lia. cbn [Nat.add Nat.leb andb].
    rewrite (proj2 (Nat.ltb_lt _ _)) by lia. rewrite Nat.sub_0_r. reflexivity.
Qed.

Lemma sum_n_ext n (f g : nat -> F) : (forall i, i < n -> f i = g i) -> sum_n n f = sum_n n g.
Proof. intros H. induction n as [|n IH]; cbn; auto. rewrite IH by (intros; apply H; lia). now rewrite H by lia. Qed.

Lemma l_sum_sum (x : list F) : l_sum x = sum_n (length x) (fn x).
Proof.
  unfold l_sum. induction x as [|v x IH] using rev_ind; [reflexivity|].
  rewrite fold_left_app, app_length, Nat.add_1_r. cbn [fold_left sum_n]. rewrite IH. f_equal.
  - apply sum_n_ext. intros i Hi. unfold fn. now rewrite app_nth1.
  - unfold fn. rewrite app_nth2, Nat.sub_diag by lia. reflexivity.
Qed.

(** ** convert *)
Lemma convert_crs_computes (w : world F) this m a A :
  w_crs w m = Some a -> w_op w this = Some A -> crs_readable a ->
  exists w', op_convert_crs w this m = Ok w' /\ same_except this w w' /\
    computes w' false this (m_col a) (m_row a) (fun x => map (fun i => row_dot (crs_row a i) x) (seq 0 (m_row a))).
Proof.
  intros Em EA R. unfold op_convert_crs. rewrite (get_ok _ _ Em). cbn [bind]. rewrite (get_ok _ _ EA). cbn [bind].
  eexists; split; [reflexivity|]. split; [apply same_except_set|].
  eapply fun_computes; [apply w_op_set|reflexivity|reflexivity|reflexivity|].
  intros x Hx. split; [now rewrite map_length, seq_length|]. exists 1. intros n Hn. destruct n as [|n]; [lia|].
  cbn [call]. rewrite (get_ok (w_crs _) m (a:=a)) by exact Em. cbn [bind]. unfold get. rewrite w_op_set. cbn [bind].
  rewrite C11_crs_matvec; auto. now rewrite repeat_length.
Qed.

Lemma convert_dense_computes (w : world F) this m d A :
  w_dense w m = Some d -> w_op w this = Some A -> dense_ok d ->
  exists w', op_convert_dense w this m = Ok w' /\ same_except this w w' /\
    computes w' false this (d_col d) (d_row d) (fun x => map (fun i => fmul f1 (mv (d_col d) (dense_fn d) (fn x) i)) (seq 0 (d_row d))).
Proof.
  intros Em EA R. unfold op_convert_dense. rewrite (get_ok _ _ Em). cbn [bind]. rewrite (get_ok _ _ EA). cbn [bind].
  eexists; split; [reflexivity|]. split; [apply same_except_set|].
  eapply fun_computes; [apply w_op_set|reflexivity|reflexivity|reflexivity|].
  intros x Hx. split; [now rewrite map_length, seq_length|]. exists 1. intros n Hn. destruct n as [|n]; [lia|].
  cbn [call]. rewrite (get_ok (w_dense _) m (a:=d)) by exact Em. cbn [bind]. unfold get. rewrite w_op_set. cbn [bind].
  rewrite dense_matvec_ok; auto. now rewrite repeat_length.
Qed.

Lemma convert_coo_computes (w : world F) this m c A :
  w_coo w m = Some c -> w_op w this = Some A -> coo_ok c ->
  in_range (c_row c) (c_col c) (coo_entries c) -> row_sorted (coo_entries c) ->
  exists w', op_convert_coo w this m = Ok w' /\ same_except this w w' /\
    computes w' false this (c_col c) (c_row c) (fun x => map (fun i => row_dot
       (map (fun t => (snd (fst t), snd t)) (filter (fun t => fst (fst t) =? i) (coo_entries c))) x) (seq 0 (c_row c))).
Proof.
  intros Em EA R HR HS. unfold op_convert_coo. rewrite (get_ok _ _ Em). cbn [bind]. rewrite (get_ok _ _ EA). cbn [bind].
  eexists; split; [reflexivity|]. split; [apply same_except_set|].
  eapply fun_computes; [apply w_op_set|reflexivity|reflexivity|reflexivity|].
  intros x Hx. split; [now rewrite map_length, seq_length|]. exists 1. intros n Hn. destruct n as [|n]; [lia|].
  cbn [call]. rewrite (get_ok (w_coo _) m (a:=c)) by exact Em. cbn [bind].
  destruct (@C08_coo_crs_coo F SF SC crs_empty c c) as (a' & c' & E & Ra & _ & R1 & R2 & _ & _ & HRow & _); auto.
  { unfold crs_buf, crs_empty. cbn. auto. }
  rewrite E. cbn [bind]. cbn in Hx. rewrite C11_crs_matvec; auto; [|lia|now rewrite repeat_length]. rewrite R1. f_equal.
  apply map_ext_in. intros i Hi. apply in_seq in Hi. now rewrite HRow by lia.
Qed.

(** ** convert_to_Dense *)
Lemma upd_unit n j : upd (repeat f0 n) j f1 = unit_vec (F:=F) n j.
Proof.
  apply list_ext with (d := f0); unfold unit_vec; [now rewrite upd_length, repeat_length, map_length, seq_length|].
  rewrite upd_length, repeat_length. intros i Hi. rewrite nth_map_seq, nth_upd, repeat_length by lia. cbn [Nat.add].
  rewrite Nat.eqb_sym. destruct (Nat.eqb_spec i j) as [->|]; cbn [andb].
  - now rewrite (proj2 (Nat.ltb_lt _ _) Hi).
  - apply nth_repeat. lia.
Qed.

Lemma unit_len n j : length (unit_vec (F:=F) n j) = n.
Proof. unfold unit_vec. now rewrite map_length, seq_length. Qed.

Lemma upd_unit_back n j : upd (unit_vec (F:=F) n j) j f0 = repeat f0 n.
Proof.
  rewrite <- upd_unit, upd_upd. rewrite <- (@upd_nth_id _ (repeat f0 n) j f0) at 2. f_equal.
  destruct (Nat.lt_ge_cases j n); [now rewrite nth_repeat by auto|]. now rewrite nth_overflow by (rewrite repeat_length; lia).
Qed.

Lemma uniform (P : nat -> nat -> Prop) N : (forall j, j < N -> exists n, forall m, n <= m -> P j m) ->
  exists n, forall m, n <= m -> forall j, j < N -> P j m.
Proof.
  induction N as [|N IH]; intros H.
  - exists 0. intros; lia.
  - destruct IH as (n1 & H1); [intros; apply H; lia|]. destruct (H N) as (n2 & H2); [lia|].
    exists (n1 + n2). intros m Hm j Hj. destruct (Nat.eq_dec j N) as [->|]; [apply H2; lia|apply H1; lia].
Qed.

Lemma dense_assign_ok (d m : dense F) : dense_ok d -> dense_ok m -> d_row d = d_row m -> d_col d = d_col m ->
  exists d', dense_assign d m = Ok d' /\ dense_ok d' /\ d_row d' = d_row d /\ d_col d' = d_col d /\
    forall i j, i < d_row d -> j < d_col d -> dense_fn d' i j = dense_fn m i j.
Proof.
  intros (D1 & D2 & D3) (M1 & M2 & M3) Hr Hc. unfold dense_assign. rewrite Hr, Hc, !Nat.eqb_refl. cbn [andb assert_ bind].
  assert (HN : d_nnz m = d_nnz d) by (rewrite D2, M2, Hr, Hc; auto).
  destruct (@copy_loop F f0 (d_nnz d) (d_first d) (d_first m) (d_val m) (d_val d)) as (t & E & HL & HT); try lia.
  rewrite E. cbn [bind]. eexists; split; [reflexivity|].
  split; [unfold dense_ok, d_set_own, d_set_val; cbn; rewrite HL; auto|]. split; [exact Hr|]. split; [exact Hc|].
  intros i j Hi Hj. unfold dense_fn, d_set_own, d_set_val. cbn. rewrite HT.
  pose proof (rc_lt Hi Hj). rewrite (proj2 (Nat.leb_le _ _)), (proj2 (Nat.ltb_lt _ _)) by (rewrite ?D2, ?Hr, ?Hc; lia). cbn [andb].
  rewrite ?Hc. f_equal. lia.
Qed.

Lemma dense_of_stdvector_ok M N (v : list F) : length v = M * N ->
  dense_of_stdvector M N v = Ok (mkDense M N v 0 (M * N) (M * N) true).
Proof.
  intros HL. unfold dense_of_stdvector. rewrite dense_new_ok. cbn [bind d_first d_val].
  rewrite (@for_ext (list F) 0 (length v) _ (fun i t => x <- rd v i ;; wr t i x)) by reflexivity.
  rewrite (@copy_loop0 F f0) by (rewrite ?repeat_length; lia).
  cbn [bind]. unfold d_set_val. cbn. rewrite firstn_all, skipn_all2, app_nil_r by (rewrite repeat_length; lia). reflexivity.
Qed.

Lemma to_dense_ok (w : world F) a A (g : list F -> list F) (d : dense F) :
  w_op w a = Some A -> computes w false a (l_col A) (l_row A) g -> dense_ok d -> d_row d = l_row A -> d_col d = l_col A ->
  exists d' n, (forall m, n <= m -> op_to_dense m w A d = Ok d') /\ dense_ok d' /\ d_row d' = l_row A /\ d_col d' = l_col A /\
    forall i j, i < l_row A -> j < l_col A -> dense_fn d' i j = fn (g (unit_vec (l_col A) j)) i.
Proof.
  intros EA Hc WD Hr Hcc. destruct (computes_fun Hc) as (A0 & k & EA0 & _ & _ & Ek & H). rewrite EA in EA0. inversion EA0; subst A0.
  cbn [l_fun] in Ek. set (M := l_row A) in *. set (N := l_col A) in *.
  destruct (@uniform (fun j m => call m w k (unit_vec N j) = Ok (g (unit_vec N j))) N) as (n & Hn).
  { intros j Hj. apply H. apply unit_len. }
  set (vals := map (fun q => fn (g (unit_vec N (q mod N))) (q / N)) (seq 0 (M * N))).
  assert (Hlv : length vals = M * N) by (unfold vals; now rewrite map_length, seq_length).
  assert (Hval : forall i j, i < M -> j < N -> nth (i * N + j) vals f0 = fn (g (unit_vec N j)) i).
  { intros i j Hi Hj. unfold vals. rewrite nth_map_seq by nia. cbn [Nat.add].
    rewrite Nat.add_comm, Nat.mod_add, Nat.mod_small, Nat.div_add, Nat.div_small by lia. reflexivity. }
  assert (E : forall m, n <= m -> for_ 0 N (fun i vals =>
      vec <- wr (repeat f0 N) i f1 ;; r <- call_mv m w A vec ;; assert_ (M =? length r) ;;;
      for_ 0 M (fun j vals => e <- rd r j ;; wr vals (j * N + i) e) vals) (repeat f0 (M * N)) = Ok vals).
  { intros m Hm.
    destruct (@for0_inv (list F) (fun c v => length v = M * N /\ forall i j, i < M -> j < c -> nth (i * N + j) v f0 = fn (g (unit_vec N j)) i) N
      (fun i vals => vec <- wr (repeat f0 N) i f1 ;; r <- call_mv m w A vec ;; assert_ (M =? length r) ;;;
         for_ 0 M (fun j vals => e <- rd r j ;; wr vals (j * N + i) e) vals) (repeat f0 (M * N))) as (v & -> & HL & HV).
    - split; [apply repeat_length|]. intros; lia.
    - intros c v Hc' (HL & HV). rewrite wr_lt by (rewrite repeat_length; lia). cbn [bind]. rewrite upd_unit.
      unfold call_mv. rewrite Ek, (Hn m Hm c Hc'). cbn [bind].
      destruct (H (unit_vec N c) (unit_len _ _)) as (HLg & _). cbn [l_out] in HLg. rewrite HLg, Nat.eqb_refl. cbn [assert_ bind].
      destruct (@for0_inv (list F) (fun i v' => length v' = M * N /\
          (forall i' j, i' < M -> j < N -> nth (i' * N + j) v' f0 = if (i' <? i) && (j =? c) then fn (g (unit_vec N c)) i' else nth (i' * N + j) v f0)) M
        (fun j vals => e <- rd (g (unit_vec N c)) j ;; wr vals (j * N + c) e) v) as (v' & -> & HL' & HV').
      + split; auto.
      + intros i v' Hi (HL' & HV'). rewrite (@rd_lt F _ i f0) by lia. cbn [bind]. rewrite wr_lt by (rewrite HL'; nia).
        eexists; split; [reflexivity|]. split; [now rewrite upd_length|]. intros i' j Hi' Hj.
        destruct (Nat.eq_dec (i * N + c) (i' * N + j)) as [He|Hne].
        * assert (He' : i = i' /\ c = j) by (apply (@rc_inj N i c i' j); auto; lia). destruct He' as [<- <-].
          rewrite nth_upd_same by (rewrite HL'; nia). rewrite Nat.eqb_refl, (proj2 (Nat.ltb_lt i (S i))) by lia. reflexivity.
        * rewrite nth_upd_other by auto. rewrite HV' by auto.
          destruct (Nat.eqb_spec j c) as [->|]; [|now rewrite !andb_false_r]. rewrite !andb_true_r.
          destruct (Nat.ltb_spec i' i); destruct (Nat.ltb_spec i' (S i)); auto; try lia.
          assert (i' = i) by lia. subst. congruence.
      + eexists; split; [reflexivity|]. split; auto. intros i j Hi Hj. rewrite HV' by (auto; lia).
        rewrite (proj2 (Nat.ltb_lt _ _) Hi). cbn [andb]. destruct (Nat.eqb_spec j c) as [->|]; auto. apply HV; auto. lia.
    - f_equal. apply list_ext with (d := f0); [lia|]. intros q Hq. rewrite HL in Hq.
      assert (HN0 : N <> 0) by (intros E0; rewrite E0, Nat.mul_0_r in Hq; lia).
      assert (Hd : q = (q / N) * N + q mod N) by (rewrite Nat.mul_comm; apply Nat.div_mod; auto).
      pose proof (Nat.mod_upper_bound q N HN0).
      assert (q / N < M) by (apply Nat.div_lt_upper_bound; nia).
      rewrite Hd, HV, Hval by auto. reflexivity. }
  set (D := mkDense M N vals 0 (M * N) (M * N) true).
  assert (WDD : dense_ok D) by (unfold dense_ok, D; cbn; auto).
  destruct (@dense_assign_ok d D WD WDD) as (d' & Ed & Wd' & R1 & R2 & HF); auto.
  exists d', n. split; [|split; auto; split; [lia|split; [lia|]]].
  - intros m Hm. unfold op_to_dense. rewrite Ek. cbn [has]. fold M N. rewrite (E m Hm). cbn [bind].
    rewrite dense_of_stdvector_ok by auto. exact Ed.
  - intros i j Hi Hj. rewrite HF by lia. unfold dense_fn, D. cbn. rewrite <- Hval by auto. f_equal. lia.
Qed.

(** ** diag *)
Lemma diag_inner m (w : world F) A k (g : list F -> list F) len its v :
  l_mv A = Some k -> len = Nat.min (l_row A) (l_col A) -> length v = len ->
  (forall i, In i its -> i < len) ->
  (forall i, i < len -> length (g (unit_vec (l_col A) i)) = l_row A /\ call m w k (unit_vec (l_col A) i) = Ok (g (unit_vec (l_col A) i))) ->
  exists v', fold_left (fun acc i =>
        '(v, tmp) <- acc ;; tmp <- wr tmp i f1 ;; r <- match call_mv m w A tmp with Throw => Abort | r => r end ;;
        e <- rd r i ;; v <- wr v i e ;; tmp <- wr tmp i f0 ;; Ok (v, tmp)) its (Ok (v, repeat f0 (l_col A))) = Ok (v', repeat f0 (l_col A)) /\
    length v' = len /\ forall i, nth i v' f0 = if existsb (Nat.eqb i) its then fn (g (unit_vec (l_col A) i)) i else nth i v f0.
Proof.
  intros Ek Hlen. revert v. induction its as [|i its IH]; intros v HL Hin Hg.
  - exists v. cbn. auto.
  - assert (Hi : i < len) by (apply Hin; cbn; auto). destruct (Hg i Hi) as [G1 G2].
    cbn [fold_left]. cbn [bind]. rewrite wr_lt by (rewrite repeat_length; lia). cbn [bind]. rewrite upd_unit.
    unfold call_mv at 2. rewrite Ek, G2. cbn [bind]. rewrite (@rd_lt F _ i f0) by lia. cbn [bind].
    rewrite wr_lt by lia. cbn [bind]. rewrite wr_lt by (rewrite unit_len; lia). cbn [bind]. rewrite upd_unit_back.
    destruct (IH (upd v i (nth i (g (unit_vec (l_col A) i)) f0))) as (v' & E & HL' & HV); auto.
    { now rewrite upd_length. } { intros; apply Hin; cbn; auto. }
    exists v'. split; [exact E|]. split; auto. intros j. rewrite HV. cbn [existsb].
    destruct (existsb (Nat.eqb j) its); [now rewrite orb_true_r|]. rewrite orb_false_r.
    destruct (Nat.eqb_spec j i) as [->|Hne]; [now rewrite nth_upd_same by lia|now rewrite nth_upd_other by auto].
Qed.

Lemma diag_ok (w : world F) a A (g : list F -> list F) v :
  sched_valid SC -> w_op w a = Some A -> computes w false a (l_col A) (l_row A) g -> length v = Nat.min (l_row A) (l_col A) ->
  exists n, forall m, n <= m ->
    op_diag m w A v = Ok (map (fun i => fn (g (unit_vec (l_col A) i)) i) (seq 0 (Nat.min (l_row A) (l_col A)))).
Proof.
  intros HSV EA Hc HL. destruct (computes_fun Hc) as (A0 & k & EA0 & _ & _ & Ek & H). rewrite EA in EA0. inversion EA0; subst A0.
  cbn [l_fun l_out] in Ek, H. set (len := Nat.min (l_row A) (l_col A)) in *.
  destruct (@uniform (fun j m => call m w k (unit_vec (l_col A) j) = Ok (g (unit_vec (l_col A) j))) len) as (n & Hn).
  { intros j Hj. apply H. apply unit_len. }
  exists n. intros m Hm. unfold op_diag. fold len. rewrite HL, Nat.eqb_refl. cbn [assert_ bind].
  pose proof (HSV len) as HP.
  assert (Hin : forall i, In i (concat (sched len)) -> i < len).
  { intros i Hi. apply (Permutation_in _ HP) in Hi. apply in_seq in Hi. lia. }
  assert (G : forall L u, (forall i, In i (concat L) -> i < len) -> length u = len ->
    exists u', fold_left (fun acc its => v <- acc ;;
       '(v, _) <- fold_left (fun acc i =>
        '(v, tmp) <- acc ;; tmp <- wr tmp i f1 ;; r <- match call_mv m w A tmp with Throw => Abort | r => r end ;;
        e <- rd r i ;; v <- wr v i e ;; tmp <- wr tmp i f0 ;; Ok (v, tmp)) its (Ok (v, repeat f0 (l_col A))) ;; Ok v) L (Ok u) = Ok u' /\
     length u' = len /\ forall i, nth i u' f0 = if existsb (Nat.eqb i) (concat L) then fn (g (unit_vec (l_col A) i)) i else nth i u f0).
  { induction L as [|its L IH]; intros u Hi Hu.
    - exists u. cbn. auto.
    - cbn [fold_left]. cbn [bind].
      destruct (@diag_inner m w A k g len its u) as (u1 & E1 & HL1 & HV1); auto.
      { intros i Hj. apply Hi. cbn. apply in_or_app. auto. }
      { intros i Hj. split; [apply H; apply unit_len|]. apply Hn; auto. }
      rewrite E1. cbn [bind].
      destruct (IH u1) as (u2 & E2 & HL2 & HV2); auto. { intros i Hj. apply Hi. cbn. apply in_or_app. auto. }
      exists u2. split; [exact E2|]. split; auto. intros i. rewrite HV2, HV1. cbn [concat]. rewrite existsb_app.
      destruct (existsb (Nat.eqb i) its); destruct (existsb (Nat.eqb i) (concat L)); auto. }
  destruct (G (sched len) v Hin HL) as (u & E & HLu & HV). rewrite E. f_equal.
  apply list_ext with (d := f0); [now rewrite map_length, seq_length|]. intros i Hi. rewrite HLu in Hi.
  rewrite HV, nth_map_seq by auto. cbn [Nat.add].
  assert (He : existsb (Nat.eqb i) (concat (sched len)) = true).
  { apply existsb_exists. exists i. split; [|apply Nat.eqb_refl]. apply (Permutation_in _ (Permutation_sym HP)). apply in_seq. lia. }
  now rewrite He.
Qed.

(** ** Dense * Dense *)
Lemma dense_matmul_ok (A B C : dense F) : dense_ok A -> dense_ok B -> dense_ok C ->
  d_col A = d_row B -> d_row A = d_row C -> d_col B = d_col C ->
  exists C', dense_matmul A B C = Ok C' /\ dense_ok C' /\ d_row C' = d_row C /\ d_col C' = d_col C /\
    forall i j, i < d_row A -> j < d_col B -> dense_fn C' i j = fmul f1 (mm (d_col A) (dense_fn A) (dense_fn B) i j).
Proof.
  intros (A1 & A2 & A3) (B1 & B2 & B3) (C1 & C2 & C3) H1 H2 H3. unfold dense_matmul. rewrite H1, H2, H3, !Nat.eqb_refl. cbn [assert_ bind].
  destruct (@grid_loop F f0 (d_row C) (d_col C) (fun i j => d_first C + (i * d_col C + j)) (fun i j _ => fmul f1 (mm (d_row B) (dense_fn A) (dense_fn B) i j))
    (fun i j v => s <- for_ 0 (d_row B) (fun k s => p <- rd (d_val A) (d_first A + (i * d_row B + k)) ;;
        q <- rd (d_val B) (d_first B + (k * d_col C + j)) ;; Ok (fadd s (fmul p q))) f0 ;;
      wr v (d_first C + (i * d_col C + j)) (fmul f1 s)) (d_val C)) as (v & -> & HL & HV & _).
  - intros i j Hi Hj. rewrite C1. nia.
  - intros i j i' j' Hi Hj Hi' Hj' He. apply (@rc_inj (d_col C) i j i' j'); auto. lia.
  - intros i j v Hi Hj Hl.
    destruct (@for0_inv F (fun k s => s = sum_n k (fun k => fmul (dense_fn A i k) (dense_fn B k j))) (d_row B)
      (fun k s => p <- rd (d_val A) (d_first A + (i * d_row B + k)) ;;
        q <- rd (d_val B) (d_first B + (k * d_col C + j)) ;; Ok (fadd s (fmul p q))) f0) as (s & -> & ->); auto.
    + intros k s Hk ->. rewrite (@rd_lt F (d_val A) _ f0) by (rewrite A1; nia). cbn [bind].
      rewrite (@rd_lt F (d_val B) _ f0) by (rewrite B1; nia). cbn [bind]. eexists; split; [reflexivity|].
      cbn [sum_n]. unfold dense_fn. rewrite H1, H3. do 2 f_equal; f_equal; lia.
    + cbn [bind]. rewrite wr_lt by (rewrite Hl, C1; nia). reflexivity.
  - cbn [bind]. eexists; split; [reflexivity|]. split; [unfold dense_ok, d_set_val; cbn; rewrite HL; auto|]. do 2 (split; [reflexivity|]).
    intros i j Hi Hj. rewrite <- HV by auto. unfold dense_fn, d_set_val. cbn. f_equal. lia.
Qed.

End LinOpProof2.

Section Exact.
Context {F : Type} {SF : Scalar F} {SC : Schedule} (Hex : exact SF).
Local Open Scope F_scope.
Let Hrt : ring_theory f0 f1 fadd fmul fsub fopp (@eq F) := Hex.
Add Ring FringLO : Hrt.

Lemma mv_ext n (A B : nat -> nat -> F) x y i : (forall j, (j < n)%nat -> A i j = B i j) -> (forall j, (j < n)%nat -> x j = y j) -> mv n A x i = mv n B y i.
Proof. intros H G. unfold mv. apply sum_ext. intros j Hj. now rewrite H, G. Qed.

Lemma mv_axpy n (A B : nat -> nat -> F) s x i : mv n A x i + s * mv n B x i = mv n (fun i j => A i j + s * B i j) x i.
Proof.
  unfold mv. rewrite <- (sum_scal Hex), <- (sum_add Hex). apply sum_ext. intros j Hj. ring.
Qed.

Lemma mv_mm n r (A B : nat -> nat -> F) x i : mv r A (mv n B x) i = mv n (mm r A B) x i.
Proof.
  unfold mv, mm.
  rewrite (@sum_ext F SF r (fun j => A i j * sum_n n (fun j0 => B j j0 * x j0)) (fun j => sum_n n (fun k => A i j * B j k * x k))).
  2:{ intros j Hj. rewrite <- (sum_scal Hex). apply sum_ext. intros k Hk. ring. }
  rewrite (sum_swap Hex). apply sum_ext. intros k Hk. rewrite <- (sum_scal_r Hex). reflexivity.
Qed.

Lemma mv_unit n (A : nat -> nat -> F) i j : (j < n)%nat -> mv n A (fn (unit_vec n j)) i = A i j.
Proof.
  intros Hj. unfold mv. rewrite (sum_single Hex) with (k := j).
  - rewrite (proj2 (Nat.ltb_lt _ _) Hj). unfold fn, unit_vec. rewrite nth_map_seq by auto. cbn [Nat.add]. rewrite Nat.eqb_refl. ring.
  - intros k Hk Hne. unfold fn, unit_vec. rewrite nth_map_seq by auto. cbn [Nat.add]. rewrite (proj2 (Nat.eqb_neq _ _) Hne). ring.
Qed.

End Exact.
