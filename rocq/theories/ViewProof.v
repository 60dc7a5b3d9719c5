(** * ViewProof: lemmas for PropertiesView. *)
From Verif Require Import Base Scalar Loops DenseModel TensorModel TensorSpec TensorProof ViewModel ViewSpec.
Set Implicit Arguments.

Section ViewProof.
Context {F : Type} {SF : Scalar F}.
Implicit Types t : target F.

Lemma put_data t b : tg_data (tg_put t b) = b.
Proof. induction t; cbn; auto. Qed.
Lemma put_off t b : tg_off (tg_put t b) = tg_off t.
Proof. induction t; cbn; auto. Qed.
Lemma put_nnz t b : tg_nnz (tg_put t b) = tg_nnz t.
Proof. destruct t; cbn; auto. Qed.
Lemma put_put t a b : tg_put (tg_put t a) b = tg_put t b.
Proof. induction t; cbn; auto. now rewrite IHt. Qed.
Lemma put_self t : tg_put t (tg_data t) = t.
Proof. induction t; cbn; auto; try (destruct d; reflexivity); try (destruct t; reflexivity). now rewrite IHt. Qed.
Lemma put_has t b : has_at t -> has_at (tg_put t b).
Proof. destruct t; cbn; auto. Qed.
Lemma put_ok t b : tg_ok t -> length b = length (tg_data t) -> tg_ok (tg_put t b).
Proof. destruct t; cbn; intros; try lia; intuition lia. Qed.
Lemma ok_bounds t : tg_ok t -> tg_off t + tg_nnz t <= length (tg_data t).
Proof. destruct t; cbn; intros; try lia. Qed.
Lemma base_root t : is_root t -> tg_base t = 0.
Proof. destruct t; cbn; tauto. Qed.
Lemma has_root t : has_at t -> is_root t.
Proof. destruct t; cbn; tauto. Qed.

Lemma at_ok t k : has_at t -> tg_ok t -> k < tg_nnz t -> tg_at t k = Ok (elem t k).
Proof.
  destruct t; cbn; try tauto; intros _ (H1 & H2) Hk; unfold elem; cbn.
  - unfold dense_at1. rewrite (proj2 (Nat.ltb_lt _ _) Hk). cbn [assert_ bind].
    rewrite (proj2 (Nat.ltb_lt (d_first d + k) (d_alloc d))) by lia. cbn [assert_ bind]. apply rd_lt. lia.
  - unfold td_at1. rewrite (proj2 (Nat.ltb_lt _ _) Hk). cbn [assert_ bind].
    rewrite (proj2 (Nat.ltb_lt (t_first t + k) (t_alloc t))) by lia. cbn [assert_ bind]. apply rd_lt. lia.
Qed.
Lemma at_out t k : has_at t -> tg_nnz t <= k -> tg_at t k = Abort.
Proof.
  destruct t; cbn; try tauto; intros _ Hk.
  - unfold dense_at1. rewrite (proj2 (Nat.ltb_ge _ _) Hk). reflexivity.
  - unfold td_at1. rewrite (proj2 (Nat.ltb_ge _ _) Hk). reflexivity.
Qed.
Lemma insert_eq t k x : has_at t -> tg_ok t -> k < tg_nnz t ->
  tg_insert t k x = Ok (tg_put t (upd (tg_data t) (tg_off t + k) x)).
Proof.
  destruct t; cbn; try tauto; intros _ (H1 & H2) Hk.
  - unfold dense_insert1. rewrite (proj2 (Nat.ltb_lt _ _) Hk). cbn [assert_ bind].
    rewrite (proj2 (Nat.ltb_lt (d_first d + k) (d_alloc d))) by lia. cbn [assert_ bind]. rewrite wr_lt by lia. reflexivity.
  - unfold td_insert1. rewrite (proj2 (Nat.ltb_lt _ _) Hk). cbn [assert_ bind].
    rewrite (proj2 (Nat.ltb_lt (t_first t + k) (t_alloc t))) by lia. cbn [assert_ bind]. rewrite wr_lt by lia. reflexivity.
Qed.
Lemma insert_out t k x : has_at t -> tg_nnz t <= k -> tg_insert t k x = Abort.
Proof.
  destruct t; cbn; try tauto; intros _ Hk.
  - unfold dense_insert1. rewrite (proj2 (Nat.ltb_ge _ _) Hk). reflexivity.
  - unfold td_insert1. rewrite (proj2 (Nat.ltb_ge _ _) Hk). reflexivity.
Qed.

Lemma range_one t k x : tg_off t + k < length (tg_data t) ->
  assigned_range t (tg_put t (upd (tg_data t) (tg_off t + k) x)) k 1 (fun _ => x).
Proof.
  intros H. eexists. split; [reflexivity|]. split; [apply upd_length|]. intros n.
  destruct (Nat.leb_spec (tg_off t + k) n), (Nat.ltb_spec n (tg_off t + k + 1)); cbn [andb]; try lia.
  - replace n with (tg_off t + k) by lia. apply nth_upd_same. auto.
  - apply nth_upd_other. lia.
  - apply nth_upd_other. lia.
Qed.

Lemma insert_ok t k x : has_at t -> tg_ok t -> k < tg_nnz t ->
  exists t', tg_insert t k x = Ok t' /\ assigned_range t t' k 1 (fun _ => x).
Proof.
  intros. rewrite insert_eq by auto. eexists. split; [reflexivity|]. apply range_one. pose proof (ok_bounds t H0). lia.
Qed.
Lemma get_ok t w k : tg_off t = 0 -> n_first w + k < length (tg_data t) -> n_get w t k = Ok (elem t (n_first w + k)).
Proof. intros H0 H. unfold n_get, elem. rewrite H0. rewrite (@rd_lt F _ _ f0) by lia. f_equal. f_equal. lia. Qed.
Lemma set_ok t w k x : tg_off t = 0 -> n_first w + k < length (tg_data t) ->
  exists t', n_set w t k x = Ok t' /\ assigned_range t t' (n_first w + k) 1 (fun _ => x).
Proof.
  intros H0 H. unfold n_set. rewrite wr_lt by lia. cbn [bind]. eexists. split; [reflexivity|].
  replace (k + n_first w) with (tg_off t + (n_first w + k)) by lia. apply range_one. lia.
Qed.
Lemma fill_ok t w x : tg_off t = 0 -> n_last w = n_first w + n_range w -> n_last w <= length (tg_data t) ->
  exists t', n_fill w t x = Ok t' /\ assigned_range t t' (n_first w) (n_range w) (fun _ => x).
Proof.
  intros H0 H1 H2. unfold n_fill.
  destruct (@fill_loop F f0 x (n_first w) (n_last w) 0 (tg_data t)) as (b & E & L & N); try lia.
  cbn [Nat.add] in E.
  rewrite E. cbn [bind]. eexists. split; [reflexivity|]. exists b. split; auto. split; auto.
  intros k. rewrite N, H0, H1. reflexivity.
Qed.
Lemma copy_ok t w src off : tg_off t = 0 -> n_first w + n_range w <= length (tg_data t) -> off + n_range w <= length src ->
  exists t', n_copy_from w t src off = Ok t' /\ assigned_range t t' (n_first w) (n_range w) (fun k => nth (off + k) src f0).
Proof.
  intros H0 H1 H2. unfold n_copy_from, n_begin.
  destruct (@copy_loop F f0 (n_range w) (n_first w) off src (tg_data t)) as (b & E & L & N); try lia.
  rewrite E. cbn [bind]. eexists. split; [reflexivity|]. exists b. split; auto. split; auto.
  intros k. rewrite N, H0. reflexivity.
Qed.

(** what [assigned_range] means for the elements *)
Lemma range_elem t t' lo n f k : assigned_range t t' lo n f ->
  elem t' k = if (lo <=? k) && (k <? lo + n) then f (k - lo) else elem t k.
Proof.
  intros (b & -> & L & N). unfold elem. rewrite put_off, put_data, N.
  destruct (Nat.leb_spec (tg_off t + lo) (tg_off t + k)), (Nat.leb_spec lo k); try lia; auto.
  destruct (Nat.ltb_spec (tg_off t + k) (tg_off t + lo + n)), (Nat.ltb_spec k (lo + n)); try lia; auto. cbn. f_equal. lia.
Qed.
Lemma range_shell t t' lo n f : assigned_range t t' lo n f ->
  tg_off t' = tg_off t /\ tg_nnz t' = tg_nnz t /\ length (tg_data t') = length (tg_data t) /\
  (has_at t -> has_at t') /\ (tg_ok t -> tg_ok t').
Proof.
  intros (b & -> & L & N). rewrite put_off, put_nnz, put_data. repeat split; auto using put_has, put_ok.
Qed.
(** consecutive changes inside one range *)
Lemma range_trans t t' t'' lo n m k f g : assigned_range t t' lo n f -> assigned_range t' t'' (lo + m) k g -> m + k <= n ->
  assigned_range t t'' lo n (fun i => if (m <=? i) && (i <? m + k) then g (i - m) else f i).
Proof.
  intros (b & -> & L & N) (b' & -> & L' & N') H. rewrite put_off, put_data in *. rewrite put_put.
  exists b'. split; auto. split; [lia|]. intros i. rewrite N', N.
  destruct (Nat.leb_spec (tg_off t + (lo + m)) i), (Nat.ltb_spec i (tg_off t + (lo + m) + k)); cbn [andb];
  destruct (Nat.leb_spec (tg_off t + lo) i), (Nat.ltb_spec i (tg_off t + lo + n)); cbn [andb]; try lia; auto;
  destruct (Nat.leb_spec m (i - (tg_off t + lo))), (Nat.ltb_spec (i - (tg_off t + lo)) (m + k)); cbn [andb]; try lia; auto.
  f_equal. lia.
Qed.
Lemma range_refl t lo n : tg_off t + lo + n <= length (tg_data t) -> assigned_range t t lo n (fun k => elem t (lo + k)).
Proof.
  intros H. exists (tg_data t). rewrite put_self. split; auto. split; auto. intros k.
  destruct (Nat.leb_spec (tg_off t + lo) k), (Nat.ltb_spec k (tg_off t + lo + n)); cbn; auto. unfold elem. f_equal. lia.
Qed.
Lemma range_ext t t' lo n f g : assigned_range t t' lo n f -> (forall k, k < n -> f k = g k) -> assigned_range t t' lo n g.
Proof.
  intros (b & E & L & N) H. exists b. split; auto. split; auto. intros k. rewrite N.
  destruct (Nat.leb_spec (tg_off t + lo) k), (Nat.ltb_spec k (tg_off t + lo + n)); cbn; auto. apply H. lia.
Qed.

Lemma flat_lt i j row col : i < row -> j < col -> i * col + j < row * col.
Proof. intros. nia. Qed.
Lemma flat_div i j col : j < col -> (i * col + j) / col = i.
Proof. intros. rewrite Nat.add_comm, Nat.div_add by lia. rewrite Nat.div_small by auto. lia. Qed.
Lemma flat_mod i j col : j < col -> (i * col + j) mod col = j.
Proof. intros. rewrite Nat.add_comm, Nat.mod_add by lia. apply Nat.mod_small. auto. Qed.

(** ** programs *)
Section Run.
Variables (t0 : target F) (start row col : nat).
Let v := vd_new t0 start row col.
Definition rel t (M : nat -> nat -> F) : Prop :=
  assigned_range t0 t start (row * col) (fun k => M (k / col) (k mod col)).

Hypothesis H0 : has_at t0.
Hypothesis Hok : tg_ok t0.
Hypothesis Hoff : tg_off t0 = 0.
Hypothesis Hfit : start + row * col <= tg_nnz t0.

Lemma v_first : n_first (vd_win v) = start.
Proof. unfold v, vd_new. cbn. rewrite base_root by now apply has_root. auto. Qed.

Lemma rel_elem t M i j : rel t M -> i < row -> j < col -> elem t (start + i * col + j) = M i j.
Proof.
  intros R Hi Hj. rewrite (range_elem _ R). pose proof (flat_lt Hi Hj).
  destruct (Nat.leb_spec start (start + i * col + j)), (Nat.ltb_spec (start + i * col + j) (start + row * col)); try lia. cbn.
  replace (start + i * col + j - start) with (i * col + j) by lia. now rewrite flat_div, flat_mod by auto.
Qed.

Lemma rel_write t t' M k n f : rel t M -> assigned_range t t' (start + k) n f -> k + n <= row * col ->
  rel t' (fun a b => if (k <=? a * col + b) && (a * col + b <? k + n) then f (a * col + b - k) else M a b).
Proof.
  intros R W H. unfold rel. eapply range_ext; [eapply range_trans; eauto|]. cbn beta. intros i Hi.
  assert (col <> 0) by nia. assert (D : i = i / col * col + i mod col) by (rewrite (Nat.div_mod i col) at 1 by auto; lia).
  rewrite <- D. reflexivity.
Qed.
Lemma rel_ext t M M' : rel t M -> (forall i j, i < row -> j < col -> M i j = M' i j) -> rel t M'.
Proof.
  intros R H. eapply range_ext; [exact R|]. cbn beta. intros k Hk. assert (col <> 0) by nia. apply H.
  - apply Nat.div_lt_upper_bound; nia.
  - apply Nat.mod_upper_bound; auto.
Qed.

Lemma rel_shell t M : rel t M -> has_at t /\ tg_ok t /\ tg_off t = 0 /\ tg_nnz t = tg_nnz t0.
Proof. intros R. destruct (range_shell R) as (A & B & _ & C & D). rewrite A, B. auto. Qed.

Lemma run_ok : forall l t M, rel t M -> Forall (vop_ok row col) l ->
  exists t', vrun v t l = Ok (fst (vmeaning col M l), t') /\ rel t' (snd (vmeaning col M l)).
Proof.
  induction l as [|o l IH]; intros t M R HF; [exists t; split; auto|].
  inversion HF as [|? ? Ho HF']; subst. destruct (rel_shell R) as (A & B & C & D). pose proof (ok_bounds t B) as HB. rewrite C, D in HB.
  assert (VF := v_first). assert (VL : n_last (vd_win v) = start + row * col). { unfold v, vd_new in *. cbn in *. rewrite VF. auto. }
  assert (VR : n_range (vd_win v) = row * col) by reflexivity. assert (VC : vd_col v = col) by reflexivity. assert (VR' : vd_row v = row) by reflexivity.
  cbn [vrun vmeaning].
  assert (G : forall y M1 t1, rel t1 M1 -> exists t', ('(ys, t) <- vrun v t1 l ;; Ok (y ++ ys, t)) = Ok (y ++ fst (vmeaning col M1 l), t') /\
      rel t' (snd (vmeaning col M1 l))).
  { intros y M1 t1 R1. destruct (IH t1 M1 R1 HF') as (t' & E & R'). exists t'. rewrite E. cbn [bind]. auto. }
  assert (K : forall y M1 t1, rel t1 M1 -> exists t', ('(ys, t) <- vrun v t1 l ;; Ok (y ++ ys, t)) =
      Ok (fst (let '(ys, M') := vmeaning col M1 l in (y ++ ys, M')), t') /\
      rel t' (snd (let '(ys, M') := vmeaning col M1 l in (y ++ ys, M')))).
  { intros y M1 t1 R1. destruct (G y M1 t1 R1) as (t' & E & R'). exists t'. destruct (vmeaning col M1 l); auto. }
  destruct o as [i j|i j x|k|k x|x|d]; cbn [vop_ok] in Ho.
  - destruct Ho as (Hi & Hj). pose proof (flat_lt Hi Hj). unfold vd_at. rewrite VF, VC, at_ok by (auto; lia). cbn [bind].
    rewrite (rel_elem R Hi Hj). apply K. auto.
  - destruct Ho as (Hi & Hj). pose proof (flat_lt Hi Hj). unfold vd_insert. rewrite VF, VC.
    destruct (@insert_ok t (start + i * col + j) x) as (t1 & -> & W); auto; try lia. cbn [bind]. apply K.
    replace (start + i * col + j) with (start + (i * col + j)) in W by lia.
    eapply rel_ext; [eapply rel_write; eauto; lia|]. cbn beta. intros a b Ha Hb.
    assert (Q : (i * col + j <=? a * col + b) && (a * col + b <? i * col + j + 1) = (a =? i) && (b =? j)).
    { apply eq_true_iff_eq. rewrite !andb_true_iff, !Nat.eqb_eq, Nat.leb_le, Nat.ltb_lt. split.
      - intros (P1 & P2). assert (E : a * col + b = i * col + j) by lia. pose proof (flat_div i Hj) as E1. pose proof (flat_mod i Hj) as E2.
        rewrite <- E, flat_div in E1 by auto. rewrite <- E, flat_mod in E2 by auto. auto.
      - intros (-> & ->). lia. }
    rewrite Q. reflexivity.
  - rewrite get_ok by (auto; lia). cbn [bind]. rewrite VF, (range_elem _ R).
    destruct (Nat.leb_spec start (start + k)), (Nat.ltb_spec (start + k) (start + row * col)); try lia. cbn [andb].
    replace (start + k - start) with k by lia. apply K. auto.
  - destruct (@set_ok t (vd_win v) k x) as (t1 & -> & W); auto; try lia. cbn [bind]. apply K. rewrite VF in W.
    eapply rel_ext; [eapply rel_write; eauto; lia|]. cbn beta. intros a b Ha Hb.
    assert (C0 : col <> 0) by nia. pose proof (Nat.div_mod k col C0) as E.
    assert (Q : (k <=? a * col + b) && (a * col + b <? k + 1) = (a =? k / col) && (b =? k mod col)).
    { apply eq_true_iff_eq. rewrite !andb_true_iff, !Nat.eqb_eq, Nat.leb_le, Nat.ltb_lt. split.
      - intros (P1 & P2). assert (E3 : a * col + b = k) by lia. pose proof (flat_div a Hb) as E1. pose proof (flat_mod a Hb) as E2.
        rewrite E3 in E1, E2. auto.
      - intros (-> & ->). lia. }
    rewrite Q. reflexivity.
  - destruct (@fill_ok t (vd_win v) x) as (t1 & -> & W); auto; try lia. cbn [bind]. apply K. rewrite VF, VR in W.
    replace start with (start + 0) in W by lia.
    eapply rel_ext; [eapply rel_write; eauto|]. cbn beta. intros a b Ha Hb. pose proof (flat_lt Ha Hb).
    destruct (Nat.leb_spec 0 (a * col + b)), (Nat.ltb_spec (a * col + b) (0 + row * col)); try lia. reflexivity.
  - destruct Ho as (O1 & O2 & (O3 & O4) & O5). unfold vd_assign_dense. rewrite VC, VR', O1, O2, !Nat.eqb_refl. cbn [andb assert_ bind].
    destruct (@copy_ok t (vd_win v) (d_val d) (d_first d)) as (t1 & -> & W); auto; try lia. cbn [bind]. apply K. rewrite VF, VR in W.
    replace start with (start + 0) in W by lia.
    eapply rel_ext; [eapply rel_write; eauto|]. cbn beta. intros a b Ha Hb. pose proof (flat_lt Ha Hb).
    destruct (Nat.leb_spec 0 (a * col + b)), (Nat.ltb_spec (a * col + b) (0 + row * col)); try lia. cbn [andb].
    unfold elem. cbn. f_equal. lia.
Qed.
End Run.
End ViewProof.
