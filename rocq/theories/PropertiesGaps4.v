(** * PropertiesGaps4: more theorems added because an automatic edit of the model survived the others (seeded/LOG.jsonl):
    the copy constructor of Dense (C07), default constructors, insert of a Dense matrix by position (C05), moves of view_Dense (C43),
    set_last and insert of nested views (C103). *)
From Coq Require Import Ring ZArith.
From Verif Require Import Base Scalar Spec Loops DenseModel CooModel CrsModel CooMiscProof Observe CrsObserve TensorModel TensorSpec TensorCrsModel TensorCrsSpec
  DenseBlasModel TensorBlasModel ViewModel ViewSpec ViewProof SolverModel.
Set Implicit Arguments.

Section Gaps.
Context {F : Type} {SF : Scalar F}.

(** Dense(const Dense &): an independent object with the same size and elements, whatever window the source is *)
Theorem C07_dense_copy (m : dense F) : dense_ok m ->
  exists d, dense_copy m = Ok d /\ dense_ok d /\ dense_plain d /\ d_row d = d_row m /\ d_col d = d_col m /\
    forall i j, i < d_row m -> j < d_col m -> dense_fn d i j = dense_fn m i j.
Proof.
  intros (H1 & H2 & H3). unfold dense_copy.
  destruct (@dense_resize_ok F SF dense_empty (d_nnz m)) as (d & E & L & B & O & N & _ & _ & Fi); [reflexivity|cbn; lia|reflexivity|].
  rewrite E. cbn [bind]. specialize (Fi eq_refl).
  destruct (@copy_loop F f0 (d_nnz d) 0 (d_first m) (d_val m) (d_val d)) as (v & Ev & Lv & Hv); [lia|lia|].
  cbn [Nat.add] in Ev. rewrite Ev. cbn [bind]. eexists. split; [reflexivity|].
  split; [unfold dense_ok; cbn [d_val d_alloc d_nnz d_row d_col d_first]; lia|]. split; [split; reflexivity|].
  split; [reflexivity|]. split; [reflexivity|]. intros i j Hi Hj. unfold dense_fn. cbn [d_first d_col d_val].
  assert (X : d_col m * i + j < d_nnz m) by (rewrite H2; nia).
  rewrite Hv. cbn [Nat.add Nat.leb andb]. rewrite (proj2 (Nat.ltb_lt _ _)) by lia. now rewrite Nat.sub_0_r.
Qed.

(** objects that have just been constructed are empty, own their (empty) buffer and can be resized to any size *)
Theorem C22_default_constructors :
  (dense_ok (F:=F) dense_empty /\ dense_plain (F:=F) dense_empty /\ d_row (F:=F) dense_empty = 0 /\ d_col (F:=F) dense_empty = 0) /\
  (crs_buf (F:=F) crs_empty /\ m_row (F:=F) crs_empty = 0 /\ m_col (F:=F) crs_empty = 0 /\ m_nnz (F:=F) crs_empty = 0 /\ m_own (F:=F) crs_empty = true) /\
  (tr_fresh (F:=F) tr_empty /\ k_shape (F:=F) tr_empty = []) /\
  (forall shape, tr_fresh (F:=F) (tr_new shape) /\ k_shape (F:=F) (tr_new shape) = shape).
Proof.
  unfold dense_ok, dense_plain, crs_buf, tr_fresh. cbn. repeat split; auto.
Qed.
Theorem C22_new_resize (N : nat) (v : F) :
  (exists d, dense_resize dense_empty N v = Ok d /\ d_nnz d = N /\ d_val d = repeat v N) /\
  (forall shape, exists t, tr_resize (tr_new shape) N v = Ok t /\ k_shape t = shape /\ k_nnz t = N /\ k_val t = repeat v N).
Proof.
  assert (Fl : forall f : nat -> list F -> res (list F), (forall i t, i < N -> length t = N -> f i t = Ok (upd t i v)) ->
    for_ 0 N f (repeat f0 N) = Ok (repeat v N)).
  { intros f Hf. destruct (@elem_loop F f0 (fun _ _ => v) 0 N 0 f (repeat f0 N)) as (t & E & L & H).
    - lia.
    - rewrite repeat_length. lia.
    - intros i t Hi Hl. rewrite repeat_length in Hl. cbn [Nat.add]. apply Hf; lia.
    - rewrite E. f_equal. apply list_ext with (d := f0); rewrite ?repeat_length in *; auto. intros i Hi. rewrite L in Hi. rewrite H.
      cbn [Nat.add Nat.leb andb]. rewrite (proj2 (Nat.ltb_lt _ _)) by lia. now rewrite nth_repeat. }
  split.
  - unfold dense_resize, dense_empty. cbn [d_first d_alloc d_own d_nnz d_val d_row d_col Nat.add Nat.min].
    replace (N <? 0) with false by (symmetry; apply Nat.ltb_ge; lia). rewrite (@for_empty _ 0 0) by lia. cbn [bind]. rewrite Fl by (intros k t Hk Ht; apply wr_lt; rewrite Ht; exact Hk). cbn [bind].
    eexists. split; [reflexivity|]. auto.
  - intros shape. unfold tr_resize, tr_new. cbn [k_first k_alloc k_own k_nnz k_val k_shape k_rps k_cis k_hash Nat.add Nat.min].
    replace (N <? 0) with false by (symmetry; apply Nat.ltb_ge; lia). rewrite (@for_empty _ 0 0) by lia. cbn [bind]. rewrite Fl by (intros k t Hk Ht; apply wr_lt; rewrite Ht; exact Hk). cbn [bind].
    eexists. split; [reflexivity|]. auto.
Qed.

(** insert(i, v) and at(i) of a Dense matrix stay inside its elements: the next one is refused *)
Theorem C22_dense_position (d : dense F) i x : dense_ok d ->
  (i < d_row d * d_col d -> exists d', dense_insert1 d i x = Ok d' /\ dense_at1 d' i = Ok x /\
     d_row d' = d_row d /\ d_col d' = d_col d /\ d_nnz d' = d_nnz d /\ d_first d' = d_first d /\
     forall k, k <> d_first d + i -> nth k (d_val d') f0 = nth k (d_val d) f0) /\
  (d_row d * d_col d <= i -> dense_insert1 d i x = Abort /\ dense_at1 d i = Abort).
Proof.
  intros (H1 & H2 & H3). unfold dense_insert1, dense_at1. rewrite <- H2. split.
  - intros Hi. rewrite (proj2 (Nat.ltb_lt _ _) Hi). cbn [assert_ bind].
    rewrite (proj2 (Nat.ltb_lt (d_first d + i) (d_alloc d))) by lia. cbn [assert_ bind]. rewrite wr_lt by lia. cbn [bind].
    eexists. split; [reflexivity|]. cbn [d_set_val d_nnz d_first d_alloc d_val d_row d_col]. rewrite (proj2 (Nat.ltb_lt _ _) Hi). cbn [assert_ bind].
    rewrite (proj2 (Nat.ltb_lt (d_first d + i) (d_alloc d))) by lia. cbn [assert_ bind].
    rewrite (@rd_lt F _ _ f0) by (rewrite upd_length; lia). rewrite nth_upd_same by lia.
    do 5 (split; [reflexivity|]). intros k Hk. apply nth_upd_other. congruence.
  - intros Hi. rewrite (proj2 (Nat.ltb_ge _ _) Hi). cbn. auto.
Qed.

(** view_Dense::move of a rank-2 tensor view with the tensor's own dimensions *)
Theorem C43_view_same_dims (A : targ) r c : h_shape A = [r; c] -> (Z.of_nat (r * c) < 2 ^ 31)%Z -> 
  move_view_dense2 A (Z.of_nat r) (Z.of_nat c) = Ok (mkMarg (h_data A) (h_first A) r c).
Proof.
  intros Hs Hb. unfold move_view_dense2, move_dims.
  destruct (Z.ltb_spec (Z.of_nat r) 0); [lia|]. destruct (Z.ltb_spec (Z.of_nat c) 0); [lia|]. cbn [andb negb require_ bind].
  unfold int_mul. rewrite Nat2Z.inj_mul in Hb.
  assert (B1 : (- 2 ^ 31 <=? Z.of_nat r * Z.of_nat c)%Z = true) by (apply Z.leb_le; lia).
  assert (B2 : (Z.of_nat r * Z.of_nat c <? 2 ^ 31)%Z = true) by (apply Z.ltb_lt; lia).
  rewrite B1, B2. cbn [andb bind].
  assert (En : h_nnz A = r * c) by (unfold h_nnz; rewrite Hs; cbn; lia).
  rewrite En, Z.mod_small, Nat2Z.inj_mul, Z.eqb_refl by lia. cbn [require_ bind]. now rewrite Hs.
Qed.

(** set_last accepts the positions up to the last element of the target, no more *)
Theorem C103_set_last (w : win) (t : target F) i :
  (n_first w + i <= tg_nnz t -> exists w', n_set_last w t i = Ok w' /\ n_first w' = n_first w /\ n_last w' = i /\ n_range w' = n_range w) /\
  (tg_nnz t < n_first w + i -> n_set_last w t i = Abort).
Proof.
  unfold n_set_last. split; intros H.
  - rewrite (proj2 (Nat.leb_le _ _) H). cbn [assert_ bind]. eexists. split; [reflexivity|]. auto.
  - rewrite (proj2 (Nat.leb_gt _ _) H). reflexivity.
Qed.

(** insert through a view of a view whose first view starts at element 0 changes the element that at reads, and no other *)
Theorem C103_nested_insert_partial (t : target F) row1 col1 start2 row2 col2 i j x :
  has_at t -> tg_ok t -> row1 * col1 <= tg_nnz t -> start2 + row2 * col2 <= row1 * col1 -> i < row2 -> j < col2 ->
  let t2 := TgView (vd_win (vd_new t 0 row1 col1)) t in
  exists t', vd_insert (vd_new t2 start2 row2 col2) t2 i j x = Ok (TgView (vd_win (vd_new t 0 row1 col1)) t') /\
    assigned_range t t' (start2 + i * col2 + j) 1 (fun _ => x).
Proof.
  intros H1 H2 H3 H4 Hi Hj. pose proof (flat_lt Hi Hj). cbv zeta. unfold vd_insert. cbn [tg_insert vd_new vd_win n_first tg_base vd_col].
  rewrite base_root by now apply has_root. cbn [Nat.add].
  destruct (@insert_ok F SF t (start2 + i * col2 + j) x) as (t' & E & A); auto; [lia|].
  rewrite E. cbn [bind]. exists t'. auto.
Qed.
End Gaps.
(** ... if it starts elsewhere the element is another one: the start is added twice *)
Theorem C103_nested_insert_refuted : exists (t t' : target Z),
  has_at t /\ tg_ok t /\ 3 + 2 * 3 <= tg_nnz t /\
  (let t2 := TgView (vd_win (vd_new t 3 2 3)) t in
   vd_insert (vd_new t2 1 1 2) t2 0 0 99%Z = Ok (TgView (vd_win (vd_new t 3 2 3)) t')) /\ tg_data t' = [0;1;2;3;4;5;6;99;8]%Z.
Proof.
  exists (TgDense (mkDense 3 3 [0;1;2;3;4;5;6;7;8]%Z 0 9 9 true)). eexists. split; [exact I|]. split; [cbn; auto|]. split; [cbn; lia|].
  split; [vm_compute; reflexivity|]. reflexivity.
Qed.
