(** * GpuProof4: resize, push_back; simulation of every call and every program. *)
From Verif Require Import Base GpuModel GpuSpec GpuProof GpuProof2 GpuProof3.
Set Implicit Arguments.

Section GpuProof4.
Variable V : Type.
Variable dv : V.
Local Notation world := (world V).
Local Notation sworld := (sworld V).
Local Notation storage := (storage V).

Lemma shared_no s i k j h : shared (V := V) s i k = false ->
  nth_error (s_obj s) j = Some (Some h) -> h_sto h = k -> j = i.
Proof.
  intros H Hj Hk. destruct (Nat.eq_dec j i) as [E|N]; [exact E|]. exfalso.
  unfold shared in H. assert (X : existsb (fun j : nat => negb (j =? i) &&
    match nth_error (s_obj s) j with Some (Some h) => h_sto h =? k | _ => false end)
    (seq 0 (length (s_obj s))) = true).
  { apply existsb_exists. exists j. split.
    - apply in_seq. assert (j < length (s_obj s)) by (apply nth_error_Some; congruence). lia.
    - rewrite (proj2 (Nat.eqb_neq _ _) N), Hj, Hk, Nat.eqb_refl. reflexivity. }
  congruence.
Qed.

(** the object's values move to another buffer section *)
Lemma rel_replace (w w' : world) s g i h o o' e v0 b' N v' :
  rel w s g -> nth_error (s_obj s) i = Some (Some h) ->
  nth_error (w_obj w) i = Some (Some o) ->
  nth_error g (h_sto h) = Some e -> nth_error (s_sto s) (h_sto h) = Some (OnHost [v0]) ->
  regions o = fst e -> fst e = [val_region o] ->
  shared s i (h_sto h) = false ->
  w_dev w' = w_dev w -> w_cell w' = w_cell w -> w_obj w' = upd (w_obj w) i (Some o') ->
  length (w_host w) <= length (w_host w') ->
  (forall b, b <> o_buf o -> b < length (w_host w) -> hostb w' b = hostb w b) ->
  b' = o_buf o \/ length (w_host w) <= b' ->
  o_kind o' = h_kind h -> o_own o' = h_own h -> o_cell o' = snd e -> o_idx o' = [] ->
  shape o' -> o_buf o' = b' -> o_nnz o' = N -> o_alloc o' = length (hostb w' b') ->
  host_has w' (Rg b' 0 N) v' ->
  rel w' (Sw (upd (s_sto s) (h_sto h) (OnHost [v'])) (s_obj s))
         (upd g (h_sto h) ([Rg b' 0 N], snd e)).
Proof.
  intros R Hi Hwi Hk Hp Hr He Sh HD HC HO HL HB Hb' K1 K2 K3 K4 K5 K6 K7 K8 HH.
  set (k := h_sto h) in *. set (e' := ([Rg b' 0 N], snd e)).
  assert (KL : k < length g) by (apply nth_error_Some; congruence).
  assert (RO : regions o' = [Rg b' 0 N]).
  { unfold regions, val_region. rewrite K4, K6, K7. destruct (o_kind o'); reflexivity. }
  assert (BO : In (o_buf o) (ebufs e)) by (unfold ebufs; rewrite He; now left).
  assert (BF : forall k1 e1, nth_error g k1 = Some e1 -> k1 <> k -> ~ In b' (ebufs e1)).
  { intros k1 e1 H1 Nk Hin. destruct Hb' as [->|Hb'].
    - apply Nk. exact (@r_disj _ _ _ _ R k1 k e1 e _ H1 Hk Hin BO).
    - pose proof (rel_buf_lt k1 _ R H1 Hin). lia. }
  assert (GE : forall k1 e1, nth_error (upd g k e') k1 = Some e1 ->
     (k1 = k /\ e1 = e') \/ (k1 <> k /\ nth_error g k1 = Some e1)).
  { intros k1 e1 H. destruct (Nat.eq_dec k k1) as [<-|Nk].
    - left. rewrite nth_error_upd_eq in H by exact KL. injection H as <-. auto.
    - right. rewrite nth_error_upd_ne in H by exact Nk. auto. }
  assert (ND : dlook (w_dev w) (o_buf o) = None).
  { pose proof (@r_place _ _ _ _ R _ _ _ Hk Hp) as P. destruct P as (_ & _ & P).
    rewrite He in P. inversion P as [|x l Q]; subst. exact Q. }
  assert (ND' : dlook (w_dev w) b' = None).
  { destruct Hb' as [->|Hb']; [exact ND|].
    destruct (dlook (w_dev w) b') eqn:D; [|reflexivity]. exfalso.
    assert (X : dlook (w_dev w) b' <> None) by congruence.
    destruct (@r_dev _ _ _ _ R _ X) as (k1 & e1 & H1 & H2).
    pose proof (rel_buf_lt k1 _ R H1 H2). lia. }
  assert (HBo : forall k1 e1 b, nth_error g k1 = Some e1 -> k1 <> k -> In b (ebufs e1) ->
     hostb w' b = hostb w b).
  { intros k1 e1 b H1 Nk Hin. apply HB.
    - intros ->. apply Nk. exact (@r_disj _ _ _ _ R k1 k e1 e _ H1 Hk Hin BO).
    - eapply rel_buf_lt; eauto. }
  constructor; cbn [s_sto s_obj].
  - rewrite !upd_length. apply (r_len R).
  - unfold tab_ok. rewrite HD. exact (r_tab R).
  - intros k1 e1 H. apply GE in H. destruct H as [[-> ->]|[Nk H]].
    + unfold e', ebufs. cbn. constructor; [easy|constructor].
    + eapply (r_nodup R); eauto.
  - intros k1 k2 e1 e2 b H1 H2 B1 B2. apply GE in H1, H2.
    destruct H1 as [[-> ->]|[N1 H1]], H2 as [[-> ->]|[N2 H2]]; auto.
    + exfalso. destruct B1 as [<-|[]]. exact (BF _ _ H2 N2 B2).
    + exfalso. destruct B2 as [<-|[]]. exact (BF _ _ H1 N1 B1).
    + eapply (r_disj R); eauto.
  - intros k1 k2 e1 e2 H1 H2 E. apply GE in H1, H2.
    destruct H1 as [[-> ->]|[N1 H1]], H2 as [[-> ->]|[N2 H2]]; auto.
    + eapply (r_cells R); eauto.
    + eapply (r_cells R); eauto.
    + eapply (r_cells R); eauto.
  - intros k1 e1 H. rewrite HC. apply GE in H. destruct H as [[-> ->]|[N1 H]].
    + cbn. exact (@r_cell_lt _ _ _ _ R _ _ Hk).
    + exact (@r_cell_lt _ _ _ _ R _ _ H).
  - intros k1 e1 p H1 H2. apply GE in H1. destruct H1 as [[-> ->]|[N1 H1]].
    + rewrite nth_error_upd_eq in H2 by (rewrite <- (r_len R); exact KL). injection H2 as <-.
      cbn [place_rel e' fst snd]. split; [|split].
      * rewrite HC. pose proof (@r_place _ _ _ _ R _ _ _ Hk Hp) as P. destruct P as (P & _). exact P.
      * constructor; [exact HH|constructor].
      * constructor; [|constructor]. unfold no_dev. rewrite HD. exact ND'.
    + rewrite nth_error_upd_ne in H2 by auto. apply place_ext with (w := w).
      * eapply (r_place R); eauto.
      * exact HL.
      * intros b Hin. eapply HBo; eauto.
      * intros b Hin. rewrite HD. reflexivity.
      * rewrite HC. reflexivity.
  - intros b Hb. rewrite HD in Hb. destruct (@r_dev _ _ _ _ R _ Hb) as (k1 & e1 & H1 & H2).
    destruct (Nat.eq_dec k1 k) as [->|N1].
    + exfalso. assert (e1 = e) by congruence. subst. unfold ebufs in H2. rewrite He in H2.
      destruct H2 as [<-|[]]. cbn in Hb. congruence.
    + exists k1, e1. rewrite nth_error_upd_ne by auto. auto.
  - rewrite HO, upd_length. apply (r_olen R).
  - intros j. rewrite HO. destruct (Nat.eq_dec i j) as [<-|Nj].
    + rewrite nth_error_upd_eq by (apply nth_error_Some; congruence). rewrite Hi.
      exists e'. fold k. rewrite nth_error_upd_eq by exact KL.
      split; [reflexivity|]. split; [exact RO|]. repeat split; auto. rewrite K6. exact K8.
    + rewrite nth_error_upd_ne by exact Nj. pose proof (r_obj R j) as Q.
      destruct (nth_error (w_obj w) j) as [[oj|]|] eqn:Ej, (nth_error (s_obj s) j) as [[hj|]|] eqn:Es; auto.
      destruct Q as (ej & A & B & C & D & E & F & G).
      assert (Nk : h_sto hj <> k).
      { intros X. apply Nj. symmetry. eapply shared_no; eauto. }
      exists ej. rewrite nth_error_upd_ne by auto. repeat split; auto.
      erewrite HBo; [exact F|exact A|exact Nk|].
      unfold ebufs. rewrite <- B. now left.
Qed.

Lemma vresize_app (v : V) (c t : list V) N :
  firstn N (c ++ repeat v (N - length c) ++ t) = vresize v c N.
Proof.
  unfold vresize. rewrite firstn_app. f_equal. rewrite firstn_app, repeat_length, Nat.sub_diag.
  cbn [firstn]. rewrite app_nil_r. apply firstn_all2. rewrite repeat_length. lia.
Qed.

Lemma vresize_length (v : V) c N : length (vresize v c N) = N.
Proof. unfold vresize. rewrite app_length, firstn_length, repeat_length. lia. Qed.

(** the facts about an unshared dense-like object on the host *)
Lemma dense_facts (w : world) s g i h c : rel w s g -> sget s i = Some (h, OnHost c) ->
  dense_like (h_kind h) = true ->
  exists o e v0, get_obj w i = Ok o /\ nth_error (w_obj w) i = Some (Some o) /\
    nth_error (s_obj s) i = Some (Some h) /\ nth_error (s_sto s) (h_sto h) = Some (OnHost [v0]) /\
    c = [v0] /\ nth_error g (h_sto h) = Some e /\ regions o = fst e /\ fst e = [val_region o] /\
    o_cell o = snd e /\ o_kind o = h_kind h /\ o_own o = h_own h /\
    o_alloc o = length (hostb w (o_buf o)) /\ o_idx o = [] /\
    host_has w (val_region o) v0 /\ status w o = false.
Proof.
  intros R H DL.
  destruct (sget_rel i R H) as (o & e & G1 & G2 & G3 & G4 & G5 & G6 & G7 & G8 & G9 & G10 & G11 & G12 & G13).
  assert (IX : o_idx o = []).
  { unfold shape in G11. rewrite G8 in G11. destruct (h_kind h); try discriminate; exact G11. }
  assert (RE : regions o = [val_region o]).
  { unfold regions. rewrite IX. destruct (o_kind o); reflexivity. }
  destruct G12 as (P0 & P1 & P2). rewrite <- G6, RE in P1.
  inversion P1 as [|r v0 rs ct HA HB]; subst. inversion HB; subst.
  exists o, e, v0. repeat split; auto; try apply HA. rewrite <- G6. exact RE.
Qed.

Lemma realloc_sim (w : world) s g i h c N v : rel w s g -> sget s i = Some (h, OnHost c) ->
  dense_like (h_kind h) = true -> shared s i (h_sto h) = false -> h_own h = true ->
  exists o w' g', get_obj w i = Ok o /\ realloc_ w i o N v = Ok (w', OutU V) /\
    rel w' (sput s h (OnHost (set_vals c (vresize v (vals c) N)))) g'.
Proof.
  intros R H DL Sh Ow.
  destruct (dense_facts i R H DL) as (o & e & v0 & G1 & G2 & G3 & G4 & G5 & G6 & G7 & G8 & G9 & G10 & G11 & G12 & G13 & G14 & G15).
  subst c. cbn [vals hd set_vals]. pose proof (host_len G14) as HLn. cbn in HLn.
  pose proof G14 as (A & B & L & E). cbn in A, B, L, E.
  exists o. unfold realloc_. rewrite hostb_rd by exact B. cbn [bind].
  rewrite slice_ok by lia. cbn [bind skipn].
  assert (EQ : firstn (Nat.min (o_nnz o) N) (hostb w (o_buf o)) ++
     repeat v (N - length (firstn (Nat.min (o_nnz o) N) (hostb w (o_buf o)))) = vresize v v0 N).
  { unfold vresize. rewrite <- E at 1. rewrite firstn_firstn, Nat.min_comm. f_equal. f_equal.
    rewrite firstn_length. lia. }
  rewrite EQ. cbn [alloc].
  eexists _, (upd g (h_sto h) ([Rg (length (w_host w)) 0 N], snd e)).
  split; [exact G1|]. split; [reflexivity|]. unfold sput.
  eapply rel_replace with (o := o) (w := w) (v0 := v0) (o' := (Ob (o_kind o) (length (w_host w)) N N (o_idx o) (o_rows o) (o_cell o) (o_own o))); try exact G8; try exact G7; try exact G6; eauto;
    cbn [set_obj set_host w_dev w_cell w_obj w_host o_kind o_own o_cell o_idx o_buf o_nnz o_alloc]; auto.
  - rewrite app_length. lia.
  - intros b Nb Lb. unfold hostb. cbn. now apply app_nth1.
  - unfold shape. cbn [o_kind o_idx]. rewrite G10; destruct (h_kind h); first [discriminate | exact G13].
  - unfold hostb. cbn. rewrite app_nth2, Nat.sub_diag by lia. cbn. now rewrite vresize_length.
  - repeat split; cbn.
    + rewrite app_length. cbn. lia.
    + apply vresize_length.
    + unfold hostb. cbn. rewrite app_nth2, Nat.sub_diag by lia. cbn.
      apply firstn_all2. rewrite vresize_length. lia.
Qed.

Lemma spare_sim (w : world) s g i h c N v o : rel w s g -> sget s i = Some (h, OnHost c) ->
  dense_like (h_kind h) = true -> shared s i (h_sto h) = false ->
  get_obj w i = Ok o -> N < o_alloc o ->
  exists w' g', host_write w (Rg (o_buf o) (o_nnz o) (N - o_nnz o)) (repeat v (N - o_nnz o)) = Ok w' /\
    rel (set_obj w' i (Some (Ob (o_kind o) (o_buf o) N (o_alloc o) (o_idx o)
                                   (o_rows o) (o_cell o) (o_own o))))
        (sput s h (OnHost (set_vals c (vresize v (vals c) N)))) g'.
Proof.
  intros R H DL Sh Go HN.
  destruct (dense_facts i R H DL) as (o2 & e & v0 & G1 & G2 & G3 & G4 & G5 & G6 & G7 & G8 & G9 & G10 & G11 & G12 & G13 & G14 & G15).
  assert (o2 = o) by congruence. subst o2.
  subst c. cbn [vals hd set_vals]. pose proof (host_len G14) as HLn. cbn in HLn.
  pose proof G14 as (A & B & L & E). cbn in A, B, L, E.
  unfold host_write. cbn [rg_buf rg_off]. rewrite hostb_rd by exact B. cbn [bind].
  rewrite splice_ok by (rewrite repeat_length; lia). cbn [bind]. rewrite repeat_length.
  set (nb := firstn (o_nnz o) (hostb w (o_buf o)) ++ repeat v (N - o_nnz o) ++
             skipn (o_nnz o + (N - o_nnz o)) (hostb w (o_buf o))).
  assert (LN : length nb = length (hostb w (o_buf o))).
  { unfold nb. rewrite !app_length, firstn_length, repeat_length, skipn_length. lia. }
  assert (FN : firstn N nb = vresize v v0 N).
  { unfold nb. rewrite E. rewrite <- L. apply vresize_app. }
  eexists _, (upd g (h_sto h) ([Rg (o_buf o) 0 N], snd e)).
  split; [reflexivity|]. unfold sput.
  eapply rel_replace with (o := o) (w := w) (v0 := v0) (o' := (Ob (o_kind o) (o_buf o) N (o_alloc o) (o_idx o) (o_rows o) (o_cell o) (o_own o))); try exact G8; try exact G7; try exact G6; eauto;
    cbn [set_obj set_host w_dev w_cell w_obj w_host o_kind o_own o_cell o_idx o_buf o_nnz o_alloc]; auto.
  - rewrite upd_length. lia.
  - intros b Nb Lb. unfold hostb. cbn. apply nth_upd_other. auto.
  - unfold shape. cbn [o_kind o_idx]. rewrite G10; destruct (h_kind h); first [discriminate | exact G13].
  - rewrite G12. unfold hostb at 2. cbn. rewrite nth_upd_same by exact B. symmetry. exact LN.
  - repeat split; cbn.
    + rewrite upd_length. exact B.
    + apply vresize_length.
    + unfold hostb. cbn. rewrite nth_upd_same by exact B. exact FN.
Qed.

Lemma upd_upd A (l : list A) i a b : upd (upd l i a) i b = upd l i b.
Proof. revert i. induction l as [|x l IH]; intros [|i]; cbn; auto. now rewrite IH. Qed.

Lemma push_sim (w : world) s g i h c v o : rel w s g -> sget s i = Some (h, OnHost c) ->
  h_kind h = KVec -> shared s i (h_sto h) = false -> h_own h = true ->
  get_obj w i = Ok o ->
  exists w' g', push_back_ dv w i o v = Ok (w', OutU V) /\
    rel w' (sput s h (OnHost (set_vals c (vals c ++ [v])))) g'.
Proof.
  intros R H KV Sh Ow Go.
  assert (DL : dense_like (h_kind h) = true) by (rewrite KV; reflexivity).
  destruct (dense_facts i R H DL) as (o2 & e & v0 & G1 & G2 & G3 & G4 & G5 & G6 & G7 & G8 & G9 & G10 & G11 & G12 & G13 & G14 & G15).
  assert (o2 = o) by congruence. subst o2.
  subst c. cbn [vals hd set_vals]. pose proof (host_len G14) as HLn. cbn in HLn.
  pose proof G14 as (A & B & L & E). cbn in A, B, L, E.
  unfold push_back_. rewrite G15, G11, Ow.
  assert (FE : forall b, o_nnz o < length b -> firstn (o_nnz o) b = v0 ->
     firstn (S (o_nnz o)) (firstn (o_nnz o) b ++ [v] ++ skipn (o_nnz o + 1) b) = v0 ++ [v]).
  { intros b Lb Eb. rewrite Eb. rewrite <- L. rewrite app_assoc. rewrite firstn_app.
    rewrite firstn_all2 by (rewrite app_length; cbn; lia).
    replace (S (length v0) - length (v0 ++ [v])) with 0 by (rewrite app_length; cbn [length]; lia).
    cbn [firstn]. apply app_nil_r. }
  assert (LV : length (v0 ++ [v]) = S (o_nnz o)) by (rewrite app_length; cbn; lia).
  assert (SHP : forall b nn al rows cc, shape (Ob (o_kind o) b nn al [] rows cc true)).
  { intros. unfold shape. cbn [o_kind o_idx]. rewrite G10, KV. reflexivity. }
  destruct (Nat.leb_spec (o_alloc o) (o_nnz o)) as [LA|LA].
  - unfold realloc_. rewrite hostb_rd by exact B. cbn [bind].
    rewrite slice_ok by lia. cbn [bind skipn].
    rewrite Nat.min_l by lia. rewrite E. cbn [alloc].
    set (nb := v0 ++ repeat dv (2 * o_alloc o + 1 - length v0)).
    set (w1 := set_host w (w_host w ++ [nb])).
    assert (LNB : length nb = 2 * o_alloc o + 1).
    { unfold nb. rewrite app_length, repeat_length. lia. }
    cbn [bind fst]. unfold get_obj. cbn [set_obj w_obj w1 set_host].
    rewrite nth_error_upd_eq by (apply nth_error_Some; congruence). cbn [bind o_buf].
    unfold host_write. cbn [rg_buf rg_off w_host set_obj w1 set_host].
    rewrite (rd_lt (w_host w ++ [nb]) [] (i := length (w_host w))) by (rewrite app_length; cbn; lia).
    rewrite app_nth2, Nat.sub_diag by lia. cbn [nth bind].
    rewrite splice_ok by (cbn [length]; lia). cbn [bind length].
    eexists _, (upd g (h_sto h) ([Rg (length (w_host w)) 0 (S (o_nnz o))], snd e)).
    split; [reflexivity|]. unfold sput.
    assert (FB : firstn (o_nnz o) nb = v0).
    { unfold nb. rewrite firstn_app. rewrite firstn_all2 by lia.
      replace (o_nnz o - length v0) with 0 by lia. cbn. apply app_nil_r. }
    eapply rel_replace with (o := o) (w := w) (v0 := v0) (o' := (Ob (o_kind o) (length (w_host w)) (S (o_nnz o)) (2 * o_alloc o + 1) (o_idx o) (o_rows o) (o_cell o) (o_own o))); try exact G8; try exact G7; try exact G6; eauto;
      cbn [set_obj set_host w_dev w_cell w_obj w_host o_kind o_own o_cell o_idx o_buf o_nnz o_alloc o_rows]; auto.
    + apply upd_upd.
    + rewrite upd_length, app_length. lia.
    + intros b Nb Lb. unfold hostb. cbn. rewrite nth_upd_other by lia. now apply app_nth1.
    + rewrite G13, G11, Ow. apply SHP.
    + unfold hostb. cbn [w_host set_obj set_host]. rewrite nth_upd_same by (rewrite app_length; cbn; lia).
      rewrite !app_length, firstn_length, skipn_length. cbn [length]. lia.
    + repeat split; cbn [rg_off rg_buf rg_len].
      * cbn. rewrite upd_length, app_length. cbn. lia.
      * exact LV.
      * unfold hostb. cbn [w_host set_obj set_host]. rewrite nth_upd_same by (rewrite app_length; cbn; lia).
        apply FE; [lia|exact FB].
  - cbn [bind]. unfold host_write. cbn [rg_buf rg_off]. rewrite hostb_rd by exact B. cbn [bind].
    rewrite splice_ok by (cbn [length]; lia). cbn [bind length].
    eexists _, (upd g (h_sto h) ([Rg (o_buf o) 0 (S (o_nnz o))], snd e)).
    split; [reflexivity|]. unfold sput.
    eapply rel_replace with (o := o) (w := w) (v0 := v0) (o' := (Ob (o_kind o) (o_buf o) (S (o_nnz o)) (o_alloc o) (o_idx o) (o_rows o) (o_cell o) (o_own o))); try exact G8; try exact G7; try exact G6; eauto;
      cbn [set_obj set_host w_dev w_cell w_obj w_host o_kind o_own o_cell o_idx o_buf o_nnz o_alloc o_rows]; auto.
    + rewrite upd_length. lia.
    + intros b Nb Lb. unfold hostb. cbn. apply nth_upd_other. auto.
    + rewrite G13, G11, Ow. apply SHP.
    + unfold hostb. cbn [w_host set_obj set_host]. rewrite nth_upd_same by exact B.
      rewrite !app_length, firstn_length, skipn_length. cbn [length]. fold (hostb w (o_buf o)). lia.
    + repeat split; cbn [rg_off rg_buf rg_len].
      * cbn. rewrite upd_length. exact B.
      * exact LV.
      * unfold hostb. cbn [w_host set_obj set_host]. rewrite nth_upd_same by exact B.
        fold (hostb w (o_buf o)). apply FE; [lia|exact E].
Qed.

End GpuProof4.
