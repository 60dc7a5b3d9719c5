(** * TensorProof: index arithmetic, tensor_Dense element access, reshape *)
From Verif Require Import Base Scalar Spec Loops DenseModel TensorModel TensorSpec.
Set Implicit Arguments.

Lemma iter_shift {S} n lo (body : nat -> S -> res S) s :
  iter_ n (Datatypes.S lo) body s = iter_ n lo (fun i => body (Datatypes.S i)) s.
Proof.
  revert lo s; induction n as [|n IH]; intros lo s; cbn; auto.
  destruct (body (Datatypes.S lo) s); cbn; auto.
Qed.

Lemma inside_length shape pos : inside shape pos -> length pos = length shape.
Proof. induction 1; cbn; auto. Qed.

Lemma t_index_acc shape pos acc : length pos = length shape ->
  for_ 0 (length pos) (fun i ind => s <- rd shape i ;; p <- rd pos i ;; Ok (ind * s + p)) acc
  = Ok (acc * prod shape + row_major shape pos).
Proof.
  unfold for_. rewrite Nat.sub_0_r.
  revert shape acc; induction pos as [|p pos IH]; intros [|d shape] acc HL; cbn in HL; try lia.
  - cbn. f_equal. lia.
  - cbn [length iter_]. cbn [rd nth_error bind]. rewrite iter_shift.
    etransitivity; [|etransitivity; [apply (IH shape (acc * d + p)); lia|]].
    + reflexivity.
    + f_equal. cbn. lia.
Qed.

Lemma t_index_eq shape pos : length pos = length shape -> t_index shape pos = Ok (row_major shape pos).
Proof.
  intros HL. unfold t_index. rewrite HL, Nat.eqb_refl. cbn [require_ bind].
  rewrite <- HL. rewrite t_index_acc by auto. reflexivity.
Qed.

Lemma t_index_rank shape pos : length pos <> length shape -> t_index shape pos = Throw.
Proof. intros H. unfold t_index. apply Nat.eqb_neq in H. rewrite H. reflexivity. Qed.

Lemma row_major_lt shape pos : inside shape pos -> row_major shape pos < prod shape.
Proof.
  induction 1 as [|p d pos shape Hp H IH]; cbn; [lia|].
  assert (p * prod shape + prod shape <= d * prod shape).
  { replace (p * prod shape + prod shape) with (S p * prod shape) by lia. apply Nat.mul_le_mono_r. lia. }
  lia.
Qed.

(** *** the inverse *)
Fixpoint unflat (shape : list nat) (n : nat) : list nat :=
  match shape with [] => [] | d :: s => ((n / prod s) mod d) :: unflat s n end.

Lemma unflat_length shape n : length (unflat shape n) = length shape.
Proof. induction shape; cbn; auto. Qed.

Lemma unflat_nth shape n i : i < length shape ->
  nth i (unflat shape n) 0 = (n / prod (skipn (S i) shape)) mod (nth i shape 0).
Proof.
  revert i; induction shape as [|d s IH]; intros i Hi; cbn in Hi; [lia|].
  destruct i as [|i]; cbn [unflat nth skipn]; auto. rewrite IH by lia. reflexivity.
Qed.

Lemma prod_pos_all shape : Forall (fun d => 0 < d) shape -> 0 < prod shape.
Proof. induction 1; cbn; auto. apply Nat.mul_pos_pos; auto. Qed.

Lemma prod_pos shape : 0 < prod shape -> Forall (fun d => 0 < d) shape.
Proof.
  induction shape as [|d s IH]; cbn; intros H; constructor.
  - destruct d; cbn in H; lia.
  - apply IH. destruct (prod s); lia.
Qed.

Lemma unflat_row_major shape n : Forall (fun d => 0 < d) shape ->
  row_major shape (unflat shape n) = n mod prod shape.
Proof.
  induction 1 as [|d s Hd Hs IH]; cbn [unflat row_major prod].
  - now rewrite Nat.mod_1_r.
  - rewrite IH. pose proof (prod_pos_all Hs). rewrite (Nat.mul_comm d).
    rewrite Nat.mod_mul_r by lia. rewrite (Nat.mul_comm (prod s)). lia.
Qed.

Lemma unflat_inside shape n : Forall (fun d => 0 < d) shape -> inside shape (unflat shape n).
Proof.
  induction 1 as [|d s Hd Hs IH]; cbn; constructor; auto. apply Nat.mod_upper_bound. lia.
Qed.

Lemma row_major_inj shape p q : inside shape p -> inside shape q ->
  row_major shape p = row_major shape q -> p = q.
Proof.
  intros Hp; revert q; induction Hp as [|x d p shape Hx Hp IH]; intros q Hq E.
  - inversion Hq; auto.
  - inversion Hq as [|y d' q' s' Hy Hq']; subst. cbn in E.
    pose proof (row_major_lt Hp). pose proof (row_major_lt Hq').
    assert (x = y /\ row_major shape p = row_major shape q') as [-> E2].
    { destruct (Nat.lt_trichotomy x y) as [L|[L|L]].
      - exfalso. assert (x * prod shape + prod shape <= y * prod shape).
        { replace (x * prod shape + prod shape) with (S x * prod shape) by lia. apply Nat.mul_le_mono_r. lia. } lia.
      - subst. lia.
      - exfalso. assert (y * prod shape + prod shape <= x * prod shape).
        { replace (y * prod shape + prod shape) with (S y * prod shape) by lia. apply Nat.mul_le_mono_r. lia. } lia. }
    f_equal. auto.
Qed.

Lemma row_major_lex shape p q : inside shape p -> inside shape q ->
  (row_major shape p <= row_major shape q <-> lex_le p q).
Proof.
  intros Hp; revert q; induction Hp as [|x d p shape Hx Hp IH]; intros q Hq.
  - cbn. split; auto; lia.
  - inversion Hq as [|y d' q' s' Hy Hq']; subst. cbn.
    pose proof (row_major_lt Hp). pose proof (row_major_lt Hq'). specialize (IH q' Hq').
    destruct (Nat.lt_trichotomy x y) as [L|[L|L]].
    + assert (x * prod shape + prod shape <= y * prod shape).
      { replace (x * prod shape + prod shape) with (S x * prod shape) by lia. apply Nat.mul_le_mono_r. lia. }
      split; auto; lia.
    + subst. split; [intros; right; split; auto; apply IH; lia|].
      intros [?|[_ ?]]; [lia|]. assert (row_major shape p <= row_major shape q') by (apply IH; auto). lia.
    + assert (y * prod shape + prod shape <= x * prod shape).
      { replace (y * prod shape + prod shape) with (S y * prod shape) by lia. apply Nat.mul_le_mono_r. lia. }
      split; [lia|]. intros [?|[? _]]; lia.
Qed.

Lemma skipn_nth {A} (l : list A) i d : i < length l -> skipn i l = nth i l d :: skipn (S i) l.
Proof. revert i; induction l as [|x l IH]; intros [|i] Hi; cbn in *; try lia; auto. apply IH. lia. Qed.

Lemma t_unindex_eq shape n : Forall (fun d => 0 < d) shape -> t_unindex shape n = Ok (unflat shape n).
Proof.
  intros HP. unfold t_unindex. set (r := length shape).
  match goal with |- bind (for_ 0 r ?B ?s) _ = _ =>
  destruct (@for0_inv (list nat * nat) (fun k st => length (fst st) = r /\
    snd st = n / prod (skipn (r - k) shape) /\
    (forall i, r - k <= i < r -> nth i (fst st) 0 = nth i (unflat shape n) 0)) r B s) as ([ind pc] & E & HL & _ & HN) end.
  - cbn [fst snd]. split; [apply repeat_length|]. split; [|intros; lia].
    rewrite Nat.sub_0_r. unfold r. rewrite skipn_all. cbn [prod]. now rewrite Nat.div_1_r.
  - intros k [ind pc] Hk (HL & Hpc & HN). cbn [fst snd] in *.
    set (i := r - 1 - k) in *. assert (Hi : i < length shape) by (unfold i, r in *; lia).
    rewrite (@rd_lt _ shape i 0) by auto. cbn [bind].
    assert (Hpos : 0 < nth i shape 0). { rewrite Forall_forall in HP. apply HP. apply nth_In. auto. }
    destruct (Nat.eqb_spec (nth i shape 0) 0); [lia|].
    rewrite wr_lt by (unfold i, r in *; lia). cbn [bind]. eexists; split; [reflexivity|]. cbn [fst snd].
    replace (r - S k) with i by (unfold i; lia). replace (r - k) with (S i) in * by (unfold i, r in *; lia).
    assert (HQ : 0 < prod (skipn (S i) shape)).
    { apply prod_pos_all. rewrite Forall_forall in HP |- *. intros x Hx. apply HP.
      rewrite <- (firstn_skipn (S i) shape). apply in_or_app. auto. }
    split; [now rewrite upd_length|]. split.
    + rewrite Hpc, (@skipn_nth _ shape i 0) by auto. cbn [prod].
      rewrite Nat.div_div by lia. f_equal. lia.
    + intros j Hj. destruct (Nat.eq_dec i j) as [<-|].
      * rewrite nth_upd_same by (unfold i, r in *; lia). rewrite unflat_nth by auto. now rewrite Hpc.
      * rewrite nth_upd_other by auto. apply HN. lia.
  - rewrite E. cbn [bind]. f_equal. cbn [fst] in *. apply list_ext with (d := 0).
    + now rewrite unflat_length.
    + intros i Hi. apply HN. lia.
Qed.

Lemma t_unindex_ok shape n : n < prod shape ->
  exists pos, t_unindex shape n = Ok pos /\ inside shape pos /\ row_major shape pos = n.
Proof.
  intros H. assert (HP : Forall (fun d => 0 < d) shape) by (apply prod_pos; lia).
  exists (unflat shape n). split; [now apply t_unindex_eq|]. split; [now apply unflat_inside|].
  rewrite unflat_row_major by auto. now apply Nat.mod_small.
Qed.

Lemma t_unindex_row_major shape pos : inside shape pos -> t_unindex shape (row_major shape pos) = Ok pos.
Proof.
  intros H. destruct (@t_unindex_ok shape (row_major shape pos)) as (p & E & Hp & Hr).
  - now apply row_major_lt.
  - rewrite E. f_equal. eapply row_major_inj; eauto.
Qed.

Lemma t_count_eq shape : t_count shape = prod shape.
Proof.
  unfold t_count. assert (G : forall s a, fold_left Nat.mul s a = a * prod s).
  { induction s as [|d s IH]; intros a; cbn; [lia|]. rewrite IH. lia. }
  rewrite G. lia.
Qed.

Section TensorDense.
Context {F : Type} {SF : Scalar F}.

(** element of a tensor_Dense *)
Definition tel (t : tdense F) (pos : list nat) : F := nth (t_first t + row_major (t_shape t) pos) (t_val t) f0.

Lemma td_at_ok (t : tdense F) pos : td_ok t -> inside (t_shape t) pos -> td_at t pos = Ok (tel t pos).
Proof.
  intros (H1 & H2 & H3) Hp. unfold td_at. rewrite t_index_eq by now apply inside_length. cbn [bind].
  pose proof (row_major_lt Hp). unfold td_at1.
  destruct (Nat.ltb_spec (row_major (t_shape t) pos) (t_nnz t)); [|lia].
  destruct (Nat.ltb_spec (t_first t + row_major (t_shape t) pos) (t_alloc t)); [|lia]. cbn [assert_ bind].
  apply rd_lt. lia.
Qed.

Lemma td_insert_ok (t : tdense F) pos v : td_ok t -> inside (t_shape t) pos ->
  td_insert t pos v = Ok (t_set_val t (upd (t_val t) (t_first t + row_major (t_shape t) pos) v)).
Proof.
  intros (H1 & H2 & H3) Hp. unfold td_insert. rewrite t_index_eq by now apply inside_length. cbn [bind].
  pose proof (row_major_lt Hp). unfold td_insert1.
  destruct (Nat.ltb_spec (row_major (t_shape t) pos) (t_nnz t)); [|lia].
  destruct (Nat.ltb_spec (t_first t + row_major (t_shape t) pos) (t_alloc t)); [|lia]. cbn [assert_ bind].
  rewrite wr_lt by lia. reflexivity.
Qed.

Lemma td_ok_set (t : tdense F) v : length v = length (t_val t) -> td_ok t -> td_ok (t_set_val t v).
Proof. intros H (H1 & H2 & H3). repeat split; cbn; auto; lia. Qed.

Lemma td_insert_full (t : tdense F) pos v : td_ok t -> inside (t_shape t) pos ->
  exists t', td_insert t pos v = Ok t' /\ td_ok t' /\ t_shape t' = t_shape t /\ td_at t' pos = Ok v /\
    (forall pos', inside (t_shape t) pos' -> pos' <> pos -> td_at t' pos' = td_at t pos').
Proof.
  intros W Hp. rewrite td_insert_ok by auto. eexists; split; [reflexivity|].
  assert (W' : td_ok (t_set_val t (upd (t_val t) (t_first t + row_major (t_shape t) pos) v)))
    by (apply td_ok_set; auto; now rewrite upd_length).
  split; auto. split; auto. pose proof W as (H1 & H2 & H3). pose proof (row_major_lt Hp).
  split.
  - rewrite td_at_ok by auto. unfold tel; cbn. f_equal. apply nth_upd_same. lia.
  - intros pos' Hp' Hne. rewrite !td_at_ok by auto. unfold tel; cbn. f_equal. apply nth_upd_other.
    intros E. apply Hne. apply (row_major_inj Hp' Hp). lia.
Qed.

Lemma td_resize_empty N (Val : F) shape :
  td_resize (mkTD shape [] 0 0 0 true) N Val = Ok (mkTD shape (repeat Val N) 0 N N true).
Proof.
  unfold td_resize. cbn [t_first t_alloc t_own t_nnz t_val t_shape].
  destruct (Nat.ltb_spec (0 + N) 0); [lia|].
  rewrite Nat.min_0_l. rewrite for_empty by lia. cbn [bind].
  rewrite fill_loop0 by (rewrite ?repeat_length; lia). cbn [bind]. f_equal. f_equal.
  apply list_ext with (d := f0).
  - rewrite ?app_length, ?firstn_length, ?skipn_length, ?repeat_length. lia.
  - intros i Hi. rewrite ?app_length, ?firstn_length, ?skipn_length, ?repeat_length in Hi.
    rewrite firstn_O. cbn [app].
    rewrite Nat.sub_0_r. rewrite app_nth1 by (rewrite repeat_length; lia). rewrite !nth_repeat by lia. auto.
Qed.

Lemma td_new_ok shape : exists t, td_new shape = Ok t /\ td_ok t /\ td_plain t /\ t_shape t = shape /\
  forall pos, inside shape pos -> td_at t pos = Ok (f0 : F).
Proof.
  unfold td_new, td_resize_shape, t_set_shape, td_empty. cbn [t_val t_first t_nnz t_alloc t_own].
  rewrite td_resize_empty. cbn [bind]. eexists; split; [reflexivity|]. cbn [t_shape t_val t_first t_nnz t_alloc t_own].
  assert (W : td_ok (mkTD shape (repeat f0 (t_count shape)) 0 (t_count shape) (t_count shape) true)).
  { repeat split; cbn; rewrite ?repeat_length, ?t_count_eq; auto. }
  split; auto. split; [split; auto|]. split; auto.
  intros pos Hp. rewrite td_at_ok by auto. unfold tel; cbn. f_equal. pose proof (row_major_lt Hp).
  apply nth_repeat. rewrite t_count_eq. auto.
Qed.

Lemma td_of_array_ok shape (value : list F) : prod shape <= length value ->
  exists t, td_of_array shape value = Ok t /\ td_ok t /\ td_plain t /\ t_shape t = shape /\
  (forall pos, inside shape pos -> td_at t pos = Ok (nth (row_major shape pos) value f0)).
Proof.
  intros HL. destruct (td_new_ok shape) as (t & E & W & (P1 & P2) & S & _).
  unfold td_of_array. rewrite E. cbn [bind]. pose proof W as (H1 & H2 & H3).
  destruct (@copy_loop F f0 (t_nnz t) (t_first t) 0 value (t_val t)) as (v & Ev & Lv & Nv); [rewrite H1; lia|rewrite H2, S; lia|].
  cbn [Nat.add] in Ev. rewrite Ev. cbn [bind]. eexists; split; [reflexivity|].
  assert (W' : td_ok (t_set_val t v)) by (apply td_ok_set; auto).
  split; auto. split; [split; auto|]. split; auto. intros pos Hp.
  rewrite td_at_ok by (auto; cbn; now rewrite S). unfold tel; cbn. f_equal. rewrite Nv.
  rewrite S, P1. pose proof (row_major_lt Hp). cbn [Nat.add]. rewrite Nat.sub_0_r.
  destruct (Nat.ltb_spec (row_major shape pos) (t_nnz t)); [reflexivity|]. rewrite H2, S in *. lia.
Qed.

Lemma td_copy_ok (s : tdense F) : td_ok s ->
  exists t, td_copy s = Ok t /\ td_ok t /\ td_plain t /\ t_shape t = t_shape s /\
  forall pos, inside (t_shape s) pos -> td_at t pos = td_at s pos.
Proof.
  intros W. pose proof W as (H1 & H2 & H3). unfold td_copy, td_empty. rewrite td_resize_empty. cbn [bind t_nnz t_first t_val].
  destruct (@copy_loop F f0 (t_nnz s) 0 (t_first s) (t_val s) (repeat f0 (t_nnz s))) as (v & Ev & Lv & Nv);
    try (rewrite ?repeat_length; lia).
  rewrite repeat_length in Lv. cbn [Nat.add] in Ev |- *. rewrite Ev. cbn [bind]. eexists; split; [reflexivity|].
  unfold t_set_shape, t_set_val. cbn [t_shape t_val t_first t_nnz t_alloc t_own].
  assert (W' : td_ok (mkTD (t_shape s) v 0 (t_nnz s) (t_nnz s) true)) by (repeat split; cbn; auto).
  split; auto. split; [split; auto|]. split; auto. intros pos Hp. rewrite !td_at_ok by auto.
  unfold tel; cbn. f_equal. rewrite Nv. pose proof (row_major_lt Hp). cbn [Nat.add]. rewrite Nat.sub_0_r.
  destruct (Nat.ltb_spec (row_major (t_shape s) pos) (t_nnz s)); [reflexivity|]. lia.
Qed.

End TensorDense.
