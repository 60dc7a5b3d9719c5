(** * PropertiesSparseSet: setting, filling, assigning, copying and comparing COO, CRS and tensor_COO objects (C107). *)
From Coq Require Import NArith.
From Verif Require CrsMiscProof.
From Verif Require Import Base Scalar Spec SumFacts DenseModel CooModel Loops Observe CooProof CooMiscProof CrsModel
  CrsObserve CrsProof CrsConvProof TensorModel TensorSpec TensorProof TensorCooProof SparseSetModel.
Set Implicit Arguments.

(** ** specification *)
Section Spec107.
Context {F : Type} {SF : Scalar F}.
(** the entries (r[i], c[i], v i), i < n; an index array that is too short counts as continued with zeros *)
Definition given_entries (r c : list nat) (v : nat -> F) (n : nat) : list (nat * nat * F) :=
  map (fun i => (nth i r 0, nth i c 0, v i)) (seq 0 n).
Definition given_tensor (ix : list (list nat)) (v : nat -> F) (n : nat) : list (list nat * F) :=
  map (fun i => (nth i ix [], v i)) (seq 0 n).
(** row i of the matrix the three arrays describe *)
Definition given_crs_row (rp ci : list nat) (v : nat -> F) (i : nat) : list (nat * F) :=
  map (fun k => (nth k ci 0, v k)) (seq (nth i rp 0) (nth (i + 1) rp 0 - nth i rp 0)).
(** the arrays describe an M x N matrix with n stored entries *)
Definition given_crs_ok (M N n : nat) (rp ci : list nat) : Prop :=
  length rp = M + 1 /\ nth 0 rp 0 = 0 /\ (forall i, i < M -> nth i rp 0 <= nth (i + 1) rp 0) /\
  nth M rp 0 = n /\ n <= length ci /\ forall k, k < n -> nth k ci 0 < N.
End Spec107.

Lemma nth_map_lt {A B} (f : A -> B) l d d' i : i < length l -> nth i (map f l) d' = f (nth i l d).
Proof. revert i; induction l as [|x l IH]; intros [|i] H; cbn in *; try lia; auto. apply IH. lia. Qed.

Section Facts.
Context {F : Type} {SF : Scalar F} {SC : Schedule}.

Lemma vbcast_ok {A} (d v : A) N off (t : list A) : off + N <= length t ->
  exists t', vbcastA N off v t = Ok t' /\ length t' = length t /\
    forall k, nth k t' d = if (off <=? k) && (k <? off + N) then v else nth k t d.
Proof.
  intros H. unfold vbcastA. destruct (@fill_loop A d v 0 N off t) as (t' & E & L & P); try lia.
  exists t'. split; auto. split; auto. intros k. rewrite P. now rewrite Nat.add_0_r.
Qed.

Lemma coo_resize_raw (c : coo F) N Val : c_own c = true -> Nat.min (c_nnz c) N <= length (c_val c) ->
  exists c', coo_resize c N Val = Ok c' /\ c_row c' = c_row c /\ c_col c' = c_col c /\ c_nnz c' = N /\ c_alloc c' = N /\
    c_ri c' = vresize 0 (c_ri c) N /\ c_ci c' = vresize 0 (c_ci c) N /\ length (c_val c') = N /\ c_own c' = true.
Proof.
  intros H1 H2. unfold coo_resize. rewrite H1. rewrite (@copy_loop0 F f0) by (rewrite ?repeat_length; lia). cbn [bind].
  match goal with |- context [for_ ?a ?b _ ?l] => destruct (@fill_loop F f0 Val a b 0 l) as (t' & E & L & _); try lia end.
  { rewrite app_length, firstn_length, skipn_length, repeat_length. lia. }
  cbn [Nat.add] in E. rewrite E. cbn [bind]. eexists; split; [reflexivity|]. csimpl. repeat split; auto.
  rewrite L, app_length, firstn_length, skipn_length, repeat_length. lia.
Qed.

Lemma given_entries_length r c v n : length (given_entries (F:=F) r c v n) = n.
Proof. unfold given_entries. now rewrite map_length, seq_length. Qed.

Lemma coo_built (c : coo F) r k (v : nat -> F) n : coo_ok c -> c_nnz c = n ->
  (forall i, i < n -> nth i (c_ri c) 0 = nth i r 0 /\ nth i (c_ci c) 0 = nth i k 0 /\ nth i (c_val c) f0 = v i) ->
  coo_entries c = given_entries r k v n.
Proof.
  intros W Hn H. apply list_ext with (d := (0, 0, f0)).
  - now rewrite coo_entries_length, given_entries_length.
  - intros i Hi. rewrite coo_entries_length in Hi by auto. rewrite coo_entries_nth by auto.
    destruct (H i) as (-> & -> & ->); [lia|]. unfold given_entries.
    rewrite (nth_map_lt _ _ 0) by (rewrite seq_length; lia). rewrite seq_nth by lia. reflexivity.
Qed.

Lemma nth_pad {A} (d : A) l n i : i < n -> nth i (vresize d l n) d = nth i l d.
Proof.
  intros H. rewrite nth_vresize by auto. destruct (Nat.ltb_spec i (length l)); auto. now rewrite nth_overflow.
Qed.

Lemma tc_built (q : tcoo F) ix (v : nat -> F) n : tc_ok q -> q_nnz q = n ->
  (forall i, i < n -> nth i (q_index q) [] = nth i ix [] /\ nth i (q_val q) f0 = v i) ->
  tc_entries q = given_tensor ix v n.
Proof.
  intros W Hn H. apply list_ext with (d := ([], f0)).
  - rewrite tc_entries_length by auto. unfold given_tensor. now rewrite map_length, seq_length.
  - intros i Hi. rewrite tc_entries_length in Hi by auto. rewrite tc_entries_nth by auto.
    destruct (H i) as (-> & ->); [lia|]. unfold given_tensor.
    rewrite (nth_map_lt _ _ 0) by (rewrite seq_length; lia). rewrite seq_nth by lia. reflexivity.
Qed.

(** ** COO::set_ptr: whatever the object held, it afterwards holds exactly the given entries in the given order *)
Theorem C107_coo_set_ptr (a : coo F) (M N : nat) (r c : list nat) (v : list F) : coo_ok a ->
  exists a', coo_set_ptr a M N r c v = Ok a' /\ coo_ok a' /\ c_row a' = M /\ c_col a' = N /\
    coo_entries a' = given_entries r c (fun i => nth i v f0) (length v).
Proof.
  intros W. pose proof W as (W1 & W2 & W3 & W4 & W5). unfold coo_set_ptr.
  destruct (@coo_resize_raw (mkCoo (c_row a) (c_col a) r c (c_val a) (c_nnz a) (c_alloc a) (c_own a)) (length v) f0)
    as (a1 & E & _ & _ & En & Ea & Er & Ec & El & Eo); csimpl; auto; try lia.
  rewrite E. cbn [bind]. rewrite En. unfold vcopyA. rewrite (@copy_loop0 F f0) by lia. cbn [bind].
  rewrite skipn_all2, app_nil_r, firstn_all2 by lia. cbn [c_ri c_ci] in Er, Ec.
  eexists; split; [reflexivity|]. csimpl.
  assert (O : coo_ok (mkCoo M N (c_ri a1) (c_ci a1) v (length v) (c_alloc a1) (c_own a1))).
  { unfold coo_ok; csimpl. rewrite Er, Ec, !vresize_length, Ea. auto. }
  split; [exact O|]. split; auto. split; auto. apply coo_built; auto. csimpl. intros i Hi. rewrite Er, Ec, !nth_pad by auto. auto.
Qed.
Theorem C107_coo_set_ptr_value (a : coo F) (M N : nat) (r c : list nat) (vsize : nat) (v : F) : coo_ok a ->
  exists a', coo_set_ptr_value a M N r c vsize v = Ok a' /\ coo_ok a' /\ c_row a' = M /\ c_col a' = N /\
    coo_entries a' = given_entries r c (fun _ => v) vsize.
Proof.
  intros W. pose proof W as (W1 & W2 & W3 & W4 & W5). unfold coo_set_ptr_value.
  destruct (@coo_resize_raw (mkCoo (c_row a) (c_col a) r c (c_val a) (c_nnz a) (c_alloc a) (c_own a)) vsize f0)
    as (a1 & E & _ & _ & En & Ea & Er & Ec & El & Eo); csimpl; auto; try lia.
  rewrite E. cbn [bind]. rewrite En. destruct (@vbcast_ok F f0 v vsize 0 (c_val a1)) as (w & -> & Lw & Pw); [lia|]. cbn [bind].
  cbn [c_ri c_ci] in Er, Ec. eexists; split; [reflexivity|]. csimpl.
  assert (O : coo_ok (mkCoo M N (c_ri a1) (c_ci a1) w vsize (c_alloc a1) (c_own a1))).
  { unfold coo_ok; csimpl. rewrite Er, Ec, !vresize_length, Lw, Ea. auto. }
  split; [exact O|]. split; auto. split; auto. apply coo_built; auto. csimpl. intros i Hi.
  rewrite Er, Ec, !nth_pad, Pw by auto. now rewrite (proj2 (Nat.ltb_lt i (0 + vsize))) by lia.
Qed.
(** an object that does not own its buffer is refused *)
Theorem C107_coo_set_ptr_not_owned (a : coo F) M N r c (v : list F) : c_own a = false -> coo_set_ptr a M N r c v = Throw.
Proof. intros H. unfold coo_set_ptr, coo_resize. csimpl. now rewrite H. Qed.

(** ** COO::fill: every stored value becomes [value]; positions, order and dimensions stay *)
Theorem C107_coo_fill (a : coo F) (value : F) : coo_ok a ->
  exists a', coo_fill a value = Ok a' /\ coo_ok a' /\ c_row a' = c_row a /\ c_col a' = c_col a /\
    coo_entries a' = map (fun t => (fst t, value)) (coo_entries a).
Proof.
  intros W. pose proof W as (W1 & W2 & W3 & W4 & W5). unfold coo_fill.
  destruct (@vbcast_ok F f0 value (c_nnz a) 0 (c_val a)) as (w & -> & Lw & Pw); [lia|]. cbn [bind].
  eexists; split; [reflexivity|]. csimpl.
  assert (O : coo_ok (mkCoo (c_row a) (c_col a) (c_ri a) (c_ci a) w (c_nnz a) (c_alloc a) (c_own a))).
  { unfold coo_ok; csimpl. rewrite Lw. auto. }
  split; [exact O|]. split; auto. split; auto. apply list_ext with (d := (0,0,f0)).
  - now rewrite map_length, !coo_entries_length.
  - intros i Hi. rewrite coo_entries_length in Hi by auto. csimpl. cbn [c_nnz] in Hi. rewrite coo_entries_nth by auto. csimpl.
    rewrite (nth_map_lt _ _ (0,0,f0)) by (rewrite coo_entries_length; auto). rewrite coo_entries_nth by auto. cbn [fst]. rewrite Pw. now rewrite (proj2 (Nat.ltb_lt i (0 + c_nnz a))) by lia.
Qed.

(** ** COO(mat, value) *)
Theorem C107_coo_copy_value (m : coo F) (value : F) : coo_ok m ->
  exists a', coo_copy_value m value = Ok a' /\ coo_ok a' /\ c_row a' = c_row m /\ c_col a' = c_col m /\
    coo_entries a' = map (fun t => (fst t, value)) (coo_entries m).
Proof.
  intros W. pose proof W as (W1 & W2 & W3 & W4 & W5). unfold coo_copy_value, vcopyA.
  rewrite !(@copy_loop0 nat 0) by (rewrite ?repeat_length; lia). cbn [bind].
  rewrite !(skipn_all2 (repeat 0 _)), !app_nil_r by (rewrite repeat_length; lia).
  destruct (@coo_resize_raw (mkCoo (c_row m) (c_col m) (firstn (c_nnz m) (c_ri m)) (firstn (c_nnz m) (c_ci m)) [] 0 0 true) (c_nnz m) f0)
    as (a1 & E & E1 & E2 & En & Ea & Er & Ec & El & Eo); csimpl; auto; try (cbn; lia).
  rewrite E. cbn [bind]. destruct (@vbcast_ok F f0 value (c_nnz m) 0 (c_val a1)) as (w & -> & Lw & Pw); [lia|]. cbn [bind].
  eexists; split; [reflexivity|]. csimpl. cbn [c_ri c_ci c_row c_col] in *.
  assert (O : coo_ok (mkCoo (c_row a1) (c_col a1) (c_ri a1) (c_ci a1) w (c_nnz a1) (c_alloc a1) true)).
  { unfold coo_ok; csimpl. rewrite Er, Ec, !vresize_length, Lw, Ea, En. auto. }
  split; [exact O|]. split; auto. split; auto. apply list_ext with (d := (0,0,f0)).
  - rewrite map_length, !coo_entries_length; auto.
  - intros i Hi. rewrite coo_entries_length in Hi by auto. cbn [c_nnz] in Hi. rewrite En in Hi. rewrite coo_entries_nth by (csimpl; auto; lia). csimpl.
    rewrite (nth_map_lt _ _ (0,0,f0)) by (rewrite coo_entries_length; auto). rewrite coo_entries_nth by auto. cbn [fst]. rewrite Er, Ec, !nth_pad, !nth_firstn by auto. rewrite Pw.
    now rewrite (proj2 (Nat.ltb_lt i (0 + c_nnz m))) by lia.
Qed.

(** ** COO operator=: the two objects must have the same dimensions and the same positions in the same order; then the
    target holds exactly the source's entries, and otherwise the call stops the program.
    Missing from the full claim: a source with another number of entries (C107_coo_assign_refuted). *)
Theorem C107_coo_assign_partial (a b : coo F) : coo_ok a -> coo_ok b -> c_nnz a = c_nnz b ->
  let same := c_row a = c_row b /\ c_col a = c_col b /\ map fst (coo_entries a) = map fst (coo_entries b) in
  (same -> exists a', coo_assign a b = Ok a' /\ coo_ok a' /\ c_row a' = c_row b /\ c_col a' = c_col b /\
     coo_entries a' = coo_entries b) /\
  (~ same -> coo_assign a b = Abort).
Proof.
  intros Wa Wb Hn same. pose proof Wa as (A1 & A2 & A3 & A4 & A5). pose proof Wb as (B1 & B2 & B3 & B4 & B5).
  unfold coo_assign, coo_same_size.
  destruct (Nat.eqb_spec (c_row a) (c_row b)) as [Er|Er]; cbn [andb assert_].
  2:{ split; [intros (? & _); tauto|reflexivity]. }
  destruct (Nat.eqb_spec (c_col a) (c_col b)) as [Ec|Ec]; cbn [andb assert_].
  2:{ split; [intros (_ & ? & _); tauto|reflexivity]. }
  cbn [bind]. unfold coo_same_structure.
  destruct (@vequalI_ok (c_nnz a) (c_ci a) (c_ci b)) as (e2 & -> & H2); try lia.
  destruct (@vequalI_ok (c_nnz a) (c_ri a) (c_ri b)) as (e3 & -> & H3); try lia. cbn [bind].
  rewrite Er, Ec, !Nat.eqb_refl. cbn [andb].
  assert (N : forall c : coo F, coo_ok c -> forall i, i < c_nnz c -> nth i (map fst (coo_entries c)) (0,0) = (nth i (c_ri c) 0, nth i (c_ci c) 0)).
  { intros c Wc i Hi. change (0,0) with (fst ((0,0),@f0 F SF)). rewrite map_nth, coo_entries_nth by auto. reflexivity. }
  assert (K : same -> e2 = true /\ e3 = true).
  { intros (_ & _ & HM). split; [apply H2|apply H3]; intros i Hi; pose proof (N a Wa i Hi) as Q1; pose proof (N b Wb i ltac:(lia)) as Q2;
      rewrite HM in Q1; congruence. }
  split.
  - intros S. destruct (K S) as [-> ->]. cbn [negb bind assert_]. unfold vcopyA. rewrite (@copy_loop0 F f0) by lia. cbn [bind].
    eexists; split; [reflexivity|]. csimpl.
    match goal with |- coo_ok ?x /\ _ => assert (O : coo_ok x) end.
    { unfold coo_ok; csimpl. rewrite app_length, firstn_length, skipn_length. repeat split; auto; lia. }
    split; [exact O|]. split; auto. split; auto. apply entries_ext; auto. csimpl. intros i Hi.
    destruct (K S) as [K2 K3]. rewrite <- (proj1 H2 eq_refl i Hi), <- (proj1 H3 eq_refl i Hi). split; auto. split; auto.
    rewrite app_nth1 by (rewrite firstn_length; lia). apply nth_firstn. auto.
  - intros NS. destruct e2; cbn [negb bind assert_]; [|reflexivity]. destruct e3; cbn [negb bind assert_]; [|reflexivity].
    exfalso. apply NS. split; auto. split; auto. apply list_ext with (d := (0,0)).
    + rewrite !map_length, !coo_entries_length; auto.
    + intros i Hi. rewrite map_length, coo_entries_length in Hi by auto. rewrite !N by (auto; lia).
      rewrite (proj1 H2 eq_refl i Hi), (proj1 H3 eq_refl i Hi). reflexivity.
Qed.

(** ** CRS *)
Lemma crs_resize_raw (a : crs F) N Val : crs_buf a -> m_own a = true ->
  exists a', crs_resize a N Val = Ok a' /\ crs_buf a' /\ m_own a' = true /\ m_nnz a' = N /\ m_rp a' = m_rp a /\ m_ci a' = m_ci a.
Proof. intros H O. destruct (crs_resize_ok N Val H O) as (a' & E & B & O' & Nn & _ & _ & R & C). eauto 10. Qed.

Lemma crs_built (a : crs F) M N n rp ci (v : nat -> F) : given_crs_ok M N n rp ci ->
  m_row a = M -> m_col a = N -> m_rp a = rp -> m_ci a = ci -> m_nnz a = n -> length (m_val a) = m_alloc a ->
  m_first a + n <= m_alloc a -> (forall k, k < n -> vln a k = v k) ->
  crs_ok a /\ forall i, i < M -> crs_row a i = given_crs_row rp ci v i.
Proof.
  intros (G1 & G2 & G3 & G4 & G5 & G6) <- <- <- <- <- HL HA HV. split.
  - unfold crs_ok, rpn, cin. repeat split; auto.
  - intros i Hi. unfold crs_row, given_crs_row, rpn, cin. apply map_ext_in. intros k Hk. apply in_seq in Hk. f_equal. apply HV.
    assert (Hm : forall j, j <= m_row a -> i + 1 <= j -> nth (i + 1) (m_rp a) 0 <= nth j (m_rp a) 0).
    { intros j. induction j as [|j IH]; intros H1 H2; [lia|]. destruct (Nat.eq_dec (i + 1) (S j)) as [<-|]; auto.
      transitivity (nth j (m_rp a) 0); [apply IH; lia|]. specialize (G3 j). replace (S j) with (j + 1) by lia. apply G3. lia. }
    pose proof (Hm (m_row a) ltac:(lia) ltac:(lia)). pose proof (G3 i Hi). lia.
Qed.

(** CRS::set_ptr: whatever the object held (even an object that did not own its buffer), it afterwards is the matrix the
    arrays describe, and the structure comparison treats it like a matrix constructed from the same arrays *)
Theorem C107_crs_set_ptr (a : crs F) (M N : nat) (rp ci : list nat) (v : list F) : crs_buf a -> given_crs_ok M N (length v) rp ci ->
  exists a', crs_set_ptr a M N rp ci v = Ok a' /\ crs_ok a' /\ crs_plain a' /\ m_row a' = M /\ m_col a' = N /\ m_nnz a' = length v /\
    (forall i, i < M -> crs_row a' i = given_crs_row rp ci (fun k => nth k v f0) i) /\
    (forall b, crs_of_arrays M N (length v) rp ci v = Ok b -> length ci = length v -> crs_same_structure a' b = true).
Proof.
  intros W G. unfold crs_set_ptr.
  destruct (@crs_resize_raw (mkCrs (m_row a) (m_col a) rp ci (m_val a) (m_first a) (m_nnz a) (m_alloc a) true (m_hash a)) (length v) f0)
    as (a1 & E & (B1 & B2 & B3) & O & Nn & R & C); auto.
  rewrite E. cbn [bind]. rewrite Nn, B3. cbn [Nat.add]. rewrite (@copy_loop0 F f0) by lia. cbn [bind]. cbn [m_rp m_ci] in R, C.
  eexists; split; [reflexivity|].
  match goal with |- crs_ok ?x /\ _ => destruct (@crs_built x M N (length v) rp ci (fun k => nth k v f0) G) as [K1 K2] end;
    cbn [crs_compute_hash m_row m_col m_rp m_ci m_val m_first m_nnz m_alloc m_own]; auto.
  - rewrite app_length, firstn_length, skipn_length. lia.
  - lia.
  - intros k Hk. unfold vln. cbn [crs_compute_hash m_first m_val]. cbn [Nat.add]. rewrite app_nth1 by (rewrite firstn_length; lia).
    apply nth_firstn. auto.
  - split; [exact K1|]. split; [split; cbn; auto|]. do 3 (split; auto). split; [exact K2|].
    intros b Hb HC. unfold crs_of_arrays in Hb.
    destruct (@crs_resize_raw (mkCrs M N (repeat 0 (M + 1)) (repeat 0 (length v)) [] 0 0 0 true 0%N) (length v) f0)
      as (b1 & E' & (B1' & B2' & B3') & O' & Nn' & R' & C'); [unfold crs_buf; cbn; auto|auto|].
    rewrite E' in Hb. cbn [bind] in Hb. cbn [m_rp m_ci] in R', C'. destruct G as (G1 & _ & _ & _ & G5 & _).
    unfold vcopyA in Hb. rewrite R', C' in Hb. rewrite !(@copy_loop0 nat 0) in Hb by (rewrite ?repeat_length; lia). cbn [bind] in Hb.
    rewrite (@copy_loop0 F f0) in Hb by lia. cbn [bind] in Hb. inversion Hb; subst b. clear Hb.
    unfold crs_same_structure, crs_compute_hash. cbn [m_hash m_row m_col m_rp m_ci].
    rewrite !app_length, !firstn_length, !skipn_length, !repeat_length, R, C.
    replace (Nat.min (M + 1) (length rp) + (M + 1 - (M + 1))) with (length rp) by lia.
    replace (Nat.min (length v) (length ci) + (length v - length v)) with (length ci) by lia.
    now rewrite N.eqb_refl, !Nat.eqb_refl.
Qed.

Theorem C107_crs_set_ptr_value (a : crs F) (M N : nat) (rp ci : list nat) (vsize : nat) (v : F) : crs_buf a -> given_crs_ok M N vsize rp ci ->
  exists a', crs_set_ptr_value a M N rp ci vsize v = Ok a' /\ crs_ok a' /\ crs_plain a' /\ m_row a' = M /\ m_col a' = N /\ m_nnz a' = vsize /\
    (forall i, i < M -> crs_row a' i = given_crs_row rp ci (fun _ => v) i).
Proof.
  intros W G. unfold crs_set_ptr_value.
  destruct (@crs_resize_raw (mkCrs (m_row a) (m_col a) rp ci (m_val a) (m_first a) (m_nnz a) (m_alloc a) true (m_hash a)) vsize f0)
    as (a1 & E & (B1 & B2 & B3) & O & Nn & R & C); auto.
  rewrite E. cbn [bind]. rewrite Nn, B3. destruct (@vbcast_ok F f0 v vsize 0 (m_val a1)) as (w & -> & Lw & Pw); [lia|]. cbn [bind].
  cbn [m_rp m_ci] in R, C. eexists; split; [reflexivity|].
  match goal with |- crs_ok ?x /\ _ => destruct (@crs_built x M N vsize rp ci (fun _ => v) G) as [K1 K2] end;
    cbn [crs_compute_hash m_row m_col m_rp m_ci m_val m_first m_nnz m_alloc m_own]; auto; try lia.
  - intros k Hk. unfold vln. cbn [crs_compute_hash m_first m_val]. cbn [Nat.add]. rewrite Pw. now rewrite (proj2 (Nat.ltb_lt k (0 + vsize))) by lia.
  - split; [exact K1|]. split; [split; cbn; auto|]. auto.
Qed.

(** CRS::fill.  Missing from the full claim: objects with an offset (C107_crs_fill_refuted). *)
Theorem C107_crs_fill_partial (a : crs F) (value : F) : crs_ok a -> m_first a = 0 ->
  exists a', crs_fill a value = Ok a' /\ crs_ok a' /\ m_row a' = m_row a /\ m_col a' = m_col a /\
    crs_entries a' = map_val (fun _ _ _ => value) (crs_entries a).
Proof.
  intros W Fz. pose proof W as (W1 & W2 & W3 & W4 & W5 & W6 & W7 & W8). unfold crs_fill.
  destruct (@vbcast_ok F f0 value (m_nnz a) 0 (m_val a)) as (w & -> & Lw & Pw); [lia|]. cbn [bind].
  eexists; split; [reflexivity|]. cbn [m_row m_col]. split.
  { unfold crs_ok, rpn, cin in *. cbn [m_row m_col m_rp m_ci m_val m_first m_nnz m_alloc]. rewrite Lw. repeat split; auto. }
  split; auto. split; auto. unfold crs_entries, map_val. cbn [m_row]. rewrite flat_map_concat_map, (flat_map_concat_map _ (seq 0 (m_row a))), concat_map, map_map.
  f_equal. apply map_ext_in. intros i Hi. apply in_seq in Hi. rewrite map_map. unfold crs_row, rpn. cbn [m_rp]. rewrite !map_map. apply map_ext_in.
  intros k Hk. apply in_seq in Hk. cbn [fst snd]. unfold vln, cin. cbn [m_first m_val m_ci]. rewrite Fz. cbn [Nat.add]. rewrite Pw.
  rewrite (proj2 (Nat.ltb_lt k (0 + m_nnz a))); auto.
  assert (Hm : forall j, j <= m_row a -> i + 1 <= j -> rpn a (i + 1) <= rpn a j).
  { intros j. induction j as [|j IH]; intros H1 H2; [lia|]. destruct (Nat.eq_dec (i + 1) (S j)) as [<-|]; auto.
    transitivity (rpn a j); [apply IH; lia|]. replace (S j) with (j + 1) by lia. apply W3. lia. }
  pose proof (Hm (m_row a) ltac:(lia) ltac:(lia)). pose proof (W3 i ltac:(lia)). unfold rpn in *. lia.
Qed.

(** CRS operator=, two objects whose structure arrays are equal (offsets allowed): the target holds the source's matrix;
    different dimensions stop the program.
    Missing from the full claim: different patterns with the same dimensions and sizes (C107_crs_assign_refuted). *)
Theorem C107_crs_assign_partial (a b : crs F) : crs_ok a -> crs_ok b ->
  (m_row a = m_row b -> m_col a = m_col b -> m_rp a = m_rp b -> m_ci a = m_ci b -> m_hash a = m_hash b ->
   exists a', crs_assign a b = Ok a' /\ crs_ok a' /\ m_row a' = m_row b /\ m_col a' = m_col b /\ crs_entries a' = crs_entries b) /\
  (m_row a <> m_row b \/ m_col a <> m_col b -> crs_assign a b = Abort).
Proof.
  intros Wa Wb. pose proof Wa as (A1 & A2 & A3 & A4 & A5 & A6 & A7 & A8). pose proof Wb as (B1 & B2 & B3 & B4 & B5 & B6 & B7 & B8). split.
  - intros Er Ec Erp Eci Eh. assert (En : m_nnz a = m_nnz b).
    { unfold rpn in *. rewrite <- A4, <- B4, Er, Erp. reflexivity. }
    unfold crs_assign, crs_same_size, crs_same_structure. rewrite Er, Ec, Eh, N.eqb_refl, !Nat.eqb_refl. cbn [negb andb assert_ bind].
    rewrite En. destruct (@copy_loop F f0 (m_nnz b) (m_first a) (m_first b) (m_val b) (m_val a)) as (w & -> & Lw & Pw); try lia. cbn [bind].
    eexists; split; [reflexivity|]. cbn [m_row m_col]. split.
    { unfold crs_ok, rpn, cin in *. cbn [m_row m_col m_rp m_ci m_val m_first m_nnz m_alloc]. rewrite Lw, <- ?Er, <- ?Ec, <- ?En. repeat split; auto. }
    split; auto. split; auto. unfold crs_entries. cbn [m_row]. rewrite !flat_map_concat_map.
    f_equal. apply map_ext_in. intros i Hi. apply in_seq in Hi. f_equal. unfold crs_row, rpn. cbn [m_rp]. rewrite Erp. apply map_ext_in.
    intros k Hk. apply in_seq in Hk. unfold vln, cin. cbn [m_first m_val m_ci]. rewrite Eci. f_equal. rewrite Pw.
    assert (Hm : forall j, j <= m_row b -> i + 1 <= j -> rpn b (i + 1) <= rpn b j).
    { intros j. induction j as [|j IH]; intros H1 H2; [lia|]. destruct (Nat.eq_dec (i + 1) (S j)) as [<-|]; auto.
      transitivity (rpn b j); [apply IH; lia|]. replace (S j) with (j + 1) by lia. apply B3. lia. }
    pose proof (Hm (m_row b) ltac:(lia) ltac:(lia)). pose proof (B3 i ltac:(lia)). unfold rpn in *.
    rewrite (proj2 (Nat.leb_le _ _)), (proj2 (Nat.ltb_lt _ _)) by lia. cbn [andb]. f_equal. lia.
  - intros H. unfold crs_assign, crs_same_size. destruct (Nat.eqb_spec (m_row a) (m_row b)), (Nat.eqb_spec (m_col a) (m_col b)); try reflexivity. tauto.
Qed.

(** ** tensor_COO *)
Theorem C107_tensor_set_ptr (q : tcoo F) (shape : list nat) (ix : list (list nat)) (v : list F) : q_nnz q <= length (q_val q) ->
  exists q', tc_set_ptr q shape ix v = Ok q' /\ tc_ok q' /\ q_shape q' = shape /\
    tc_entries q' = given_tensor ix (fun i => nth i v f0) (length v).
Proof.
  intros H. unfold tc_set_ptr.
  destruct (@tc_resize_ok F SF (mkTC shape ix (q_val q) (q_nnz q) (q_alloc q) true) (length v) f0) as (q1 & E & W & S & Nn & Al & Ix & _);
    cbn [q_own q_nnz q_val]; auto; try lia. rewrite E. cbn [bind]. pose proof W as (W1 & W2 & W3 & W4). cbn [q_shape q_index] in *.
  rewrite Nn. unfold vcopyA. rewrite (@copy_loop0 F f0) by lia. cbn [bind]. rewrite skipn_all2, app_nil_r, firstn_all2 by lia.
  eexists; split; [reflexivity|]. cbn [q_shape].
  match goal with |- tc_ok ?x /\ _ => assert (O : tc_ok x) end.
  { unfold tc_ok. cbn [q_index q_val q_nnz q_alloc q_own]. rewrite <- Al. repeat split; auto; lia. }
  split; [exact O|]. split; auto. apply tc_built; auto. cbn [q_index q_val]. intros i Hi. split; auto. rewrite Ix. now apply nth_pad.
Qed.
Theorem C107_tensor_set_ptr_value (q : tcoo F) (shape : list nat) (ix : list (list nat)) (vsize : nat) (v : F) : q_nnz q <= length (q_val q) ->
  exists q', tc_set_ptr_value q shape ix vsize v = Ok q' /\ tc_ok q' /\ q_shape q' = shape /\
    tc_entries q' = given_tensor ix (fun _ => v) vsize.
Proof.
  intros H. unfold tc_set_ptr_value.
  destruct (@tc_resize_ok F SF (mkTC shape ix (q_val q) (q_nnz q) (q_alloc q) true) vsize f0) as (q1 & E & W & S & Nn & Al & Ix & _);
    cbn [q_own q_nnz q_val]; auto; try lia. rewrite E. cbn [bind]. pose proof W as (W1 & W2 & W3 & W4). cbn [q_shape q_index] in *.
  rewrite Nn. destruct (@vbcast_ok F f0 v vsize 0 (q_val q1)) as (w & -> & Lw & Pw); [lia|]. cbn [bind].
  eexists; split; [reflexivity|]. cbn [q_shape].
  match goal with |- tc_ok ?x /\ _ => assert (O : tc_ok x) end.
  { unfold tc_ok. cbn [q_index q_val q_nnz q_alloc q_own]. repeat split; auto; lia. }
  split; [exact O|]. split; auto. apply tc_built; auto. cbn [q_index q_val]. intros i Hi. rewrite Ix, Pw. split; [now apply nth_pad|].
  now rewrite (proj2 (Nat.ltb_lt i (0 + vsize))) by lia.
Qed.

Lemma tc_map_fst (q q' : tcoo F) (value : F) : tc_ok q -> tc_ok q' -> q_nnz q' = q_nnz q ->
  (forall i, i < q_nnz q -> nth i (q_index q') [] = nth i (q_index q) [] /\ nth i (q_val q') f0 = value) ->
  tc_entries q' = map (fun t => (fst t, value)) (tc_entries q).
Proof.
  intros W W' Hn H. apply list_ext with (d := ([], f0)).
  - rewrite map_length, !tc_entries_length; auto.
  - intros i Hi. rewrite tc_entries_length in Hi by auto. rewrite tc_entries_nth by auto.
    rewrite (nth_map_lt _ _ ([],f0)) by (rewrite tc_entries_length; auto; lia). rewrite tc_entries_nth by (auto; lia). cbn [fst]. destruct (H i) as (-> & ->); auto. lia.
Qed.

Theorem C107_tensor_fill (q : tcoo F) (value : F) : tc_ok q ->
  exists q', tc_fill q value = Ok q' /\ tc_ok q' /\ q_shape q' = q_shape q /\
    tc_entries q' = map (fun t => (fst t, value)) (tc_entries q).
Proof.
  intros W. pose proof W as (W1 & W2 & W3 & W4). unfold tc_fill.
  destruct (@vbcast_ok F f0 value (q_nnz q) 0 (q_val q)) as (w & -> & Lw & Pw); [lia|]. cbn [bind].
  eexists; split; [reflexivity|]. cbn [q_shape].
  match goal with |- tc_ok ?x /\ _ => assert (O : tc_ok x) end.
  { unfold tc_ok. cbn [q_index q_val q_nnz q_alloc q_own]. rewrite Lw. auto. }
  split; [exact O|]. split; auto. apply tc_map_fst; auto. cbn [q_index q_val]. intros i Hi. split; auto. rewrite Pw.
  now rewrite (proj2 (Nat.ltb_lt i (0 + q_nnz q))) by lia.
Qed.
Theorem C107_tensor_copy (q : tcoo F) : tc_ok q ->
  exists q', tc_copy q = Ok q' /\ tc_ok q' /\ q_shape q' = q_shape q /\ tc_entries q' = tc_entries q.
Proof.
  intros W. pose proof W as (W1 & W2 & W3 & W4). unfold tc_copy.
  destruct (@tc_resize_ok F SF (mkTC (q_shape q) (q_index q) [] 0 0 true) (q_nnz q) f0) as (q1 & E & W' & S & Nn & Al & Ix & _);
    cbn [q_own q_nnz q_val]; auto; try (cbn; lia). rewrite E. cbn [bind]. pose proof W' as (W1' & W2' & W3' & W4'). cbn [q_shape q_index] in *.
  unfold vcopyA. rewrite (@copy_loop0 F f0) by lia. cbn [bind]. rewrite (skipn_all2 (q_val q1)), app_nil_r by lia.
  eexists; split; [reflexivity|]. cbn [q_shape].
  match goal with |- tc_ok ?x /\ _ => assert (O : tc_ok x) end.
  { unfold tc_ok. cbn [q_index q_val q_nnz q_alloc q_own]. rewrite firstn_length. repeat split; auto; lia. }
  split; [exact O|]. split; auto. apply list_ext with (d := ([],f0)).
  - rewrite !tc_entries_length; auto.
  - intros i Hi. rewrite tc_entries_length in Hi by auto. cbn [q_nnz] in Hi. rewrite !tc_entries_nth by (auto; lia). cbn [q_index q_val].
    rewrite Ix, nth_pad, nth_firstn by lia. reflexivity.
Qed.
Theorem C107_tensor_copy_value (q : tcoo F) (value : F) : tc_ok q ->
  exists q', tc_copy_value q value = Ok q' /\ tc_ok q' /\ q_shape q' = q_shape q /\
    tc_entries q' = map (fun t => (fst t, value)) (tc_entries q).
Proof.
  intros W. pose proof W as (W1 & W2 & W3 & W4). unfold tc_copy_value.
  destruct (@tc_resize_ok F SF (mkTC (q_shape q) (q_index q) [] 0 0 true) (q_nnz q) f0) as (q1 & E & W' & S & Nn & Al & Ix & _);
    cbn [q_own q_nnz q_val]; auto; try (cbn; lia). rewrite E. cbn [bind]. pose proof W' as (W1' & W2' & W3' & W4'). cbn [q_shape q_index] in *.
  destruct (@vbcast_ok F f0 value (q_nnz q) 0 (q_val q1)) as (w & -> & Lw & Pw); [lia|]. cbn [bind].
  eexists; split; [reflexivity|]. cbn [q_shape].
  match goal with |- tc_ok ?x /\ _ => assert (O : tc_ok x) end.
  { unfold tc_ok. cbn [q_index q_val q_nnz q_alloc q_own]. repeat split; auto; lia. }
  split; [exact O|]. split; auto. apply tc_map_fst; auto. cbn [q_index q_val]. intros i Hi. split; [rewrite Ix; now apply nth_pad|]. rewrite Pw.
  now rewrite (proj2 (Nat.ltb_lt i (0 + q_nnz q))) by lia.
Qed.

(** tensor_COO ==, same number of entries: true exactly when shape, positions (in order) and values agree.
    Missing from the full claim: another number of entries (C107_tensor_equal_refuted, C107_tensor_equal_reads_outside). *)
Lemma tc_equal_loop_ok (a b : tcoo F) n : forall i, i + n <= length (q_index a) -> i + n <= length (q_index b) ->
  exists r, tc_equal_loop a b i n = Ok r /\ (r = true <-> forall k, i <= k < i + n -> nth k (q_index a) [] = nth k (q_index b) []).
Proof.
  induction n as [|n IH]; intros i Ha Hb.
  - exists true. split; [reflexivity|]. split; auto. intros _ k Hk. lia.
  - cbn [tc_equal_loop]. rewrite !(@rd_lt _ _ _ []) by lia. cbn [bind].
    assert (Hne : nth i (q_index a) [] <> nth i (q_index b) [] -> (false = true <-> forall k, i <= k < i + S n -> nth k (q_index a) [] = nth k (q_index b) [])).
    { intros H. split; [discriminate|]. intros G. exfalso. apply H, G. lia. }
    destruct (Nat.eqb_spec (length (nth i (q_index a) [])) (length (nth i (q_index b) []))) as [El|El]; cbn [negb].
    2:{ exists false. split; [reflexivity|]. apply Hne. congruence. }
    destruct (@vequalI_ok (length (nth i (q_index a) [])) (nth i (q_index a) []) (nth i (q_index b) [])) as (e & -> & He); try lia. cbn [bind].
    destruct e; cbn [negb].
    + destruct (IH (S i)) as (r & -> & Hr); try lia. exists r. split; auto. rewrite Hr.
      assert (E0 : nth i (q_index a) [] = nth i (q_index b) []).
      { apply list_ext with (d := 0); auto. intros k Hk. symmetry. apply (proj1 He eq_refl). auto. }
      split; intros G k Hk; [|apply G; lia]. destruct (Nat.eq_dec k i) as [->|]; auto. apply G. lia.
    + exists false. split; [reflexivity|]. apply Hne. intros E0. destruct He as [_ He]. rewrite E0 in He. discriminate He. auto.
Qed.

Theorem C107_tensor_equal_partial (a b : tcoo F) : tc_ok a -> tc_ok b -> q_nnz a = q_nnz b ->
  exists r, tc_equal a b = Ok r /\
    (r = true <-> q_shape a = q_shape b /\
       Forall2 (fun x y => fst x = fst y /\ feqb (snd y) (snd x) = true) (tc_entries a) (tc_entries b)).
Proof.
  intros Wa Wb Hn. pose proof Wa as (A1 & A2 & A3 & A4). pose proof Wb as (B1 & B2 & B3 & B4). unfold tc_equal.
  destruct (Nat.eqb_spec (length (q_shape a)) (length (q_shape b))) as [El|El]; cbn [negb].
  2:{ exists false. split; [reflexivity|]. split; [discriminate|]. intros [H _]. congruence. }
  destruct (list_eq_dec Nat.eq_dec (q_shape a) (q_shape b)) as [Es|Es]; cbn [negb].
  2:{ exists false. split; [reflexivity|]. split; [discriminate|]. tauto. }
  destruct (@vequalF_ok F SF (q_nnz a) (q_val a) (q_val b)) as (e1 & -> & H1); try lia. cbn [bind].
  destruct (@tc_equal_loop_ok a b (q_nnz a) 0) as (e2 & E2 & H2); try lia.
  exists (e1 && e2). split; [rewrite E2; destruct e1; reflexivity|].
  rewrite andb_true_iff, H1, H2. rewrite (@Forall2_nth _ _ _ _ _ ([],f0) ([],f0)), !tc_entries_length by auto. split.
  - intros [G1 G2]. split; auto. split; auto. intros i Hi. rewrite !tc_entries_nth by (auto; lia). cbn [fst snd]. split; [apply G2; lia|]. auto.
  - intros (_ & _ & G). split; intros i Hi; specialize (G i ltac:(lia)); rewrite !tc_entries_nth in G by (auto; lia); cbn in G; tauto.
Qed.

(** is_same_structure of two tensor_COO objects with the same number of entries and positions of full length: true exactly
    when shapes and positions agree.  is_same_size: the shapes agree. *)
Lemma tc_structure_loop_ok (a b : tcoo F) ans n : forall i, i + n <= length (q_index a) -> i + n <= length (q_index b) ->
  (forall k, k < i + n -> length (nth k (q_index a) []) = length (nth k (q_index b) [])) ->
  exists r, tc_structure_loop a b ans i n = Ok r /\ (r = true <-> ans = true /\ forall k, i <= k < i + n -> nth k (q_index a) [] = nth k (q_index b) []).
Proof.
  induction n as [|n IH]; intros i Ha Hb Hl.
  - exists ans. split; [reflexivity|]. split; [intros H; split; auto; intros k Hk; lia|tauto].
  - cbn [tc_structure_loop]. rewrite !(@rd_lt _ _ _ []) by lia. cbn [bind]. pose proof (Hl i ltac:(lia)) as El.
    destruct (@vequalI_ok (length (nth i (q_index a) [])) (nth i (q_index a) []) (nth i (q_index b) [])) as (e & -> & He); try lia. cbn [bind].
    destruct e; cbn [negb].
    + destruct (IH (S i)) as (r & -> & Hr); try lia. { intros k Hk. apply Hl. lia. } exists r. split; auto. rewrite Hr.
      assert (E0 : nth i (q_index a) [] = nth i (q_index b) []).
      { apply list_ext with (d := 0); auto. intros k Hk. symmetry. apply (proj1 He eq_refl). auto. }
      split; intros [G0 G]; split; auto; intros k Hk; [|apply G; lia]. destruct (Nat.eq_dec k i) as [->|]; auto. apply G. lia.
    + exists false. split; [reflexivity|]. split; [discriminate|]. intros [_ G]. destruct He as [_ He]. rewrite (G i) in He by lia. discriminate He. auto.
Qed.
Theorem C107_tensor_structure_partial (a b : tcoo F) (rank : nat) : tc_ok a -> tc_ok b -> q_nnz a = q_nnz b ->
  (forall p v, In (p, v) (tc_entries a) \/ In (p, v) (tc_entries b) -> length p = rank) ->
  exists r, tc_same_structure a b = Ok r /\
    (r = true <-> q_shape a = q_shape b /\ map fst (tc_entries a) = map fst (tc_entries b)).
Proof.
  intros Wa Wb Hn Hr. pose proof Wa as (A1 & A2 & A3 & A4). pose proof Wb as (B1 & B2 & B3 & B4). unfold tc_same_structure.
  assert (L : forall q : tcoo F, tc_ok q -> forall i, i < q_nnz q -> In (nth i (q_index q) [], nth i (q_val q) f0) (tc_entries q)).
  { intros q W i Hi. rewrite <- tc_entries_nth by auto. apply nth_In. now rewrite tc_entries_length. }
  destruct (@tc_structure_loop_ok a b (if list_eq_dec Nat.eq_dec (q_shape a) (q_shape b) then true else false) (q_nnz a) 0) as (r & -> & H); try lia.
  { intros k Hk. transitivity rank; [|symmetry]; eapply Hr; [left|right]; apply L; auto; lia. }
  exists r. split; auto. rewrite H.
  assert (N : forall q : tcoo F, tc_ok q -> forall i, i < q_nnz q -> nth i (map fst (tc_entries q)) [] = nth i (q_index q) []).
  { intros q W i Hi. change [] with (fst (@nil nat, @f0 F SF)) at 1. rewrite map_nth, tc_entries_nth by auto. reflexivity. }
  assert (S1 : (if list_eq_dec Nat.eq_dec (q_shape a) (q_shape b) then true else false) = true <-> q_shape a = q_shape b).
  { destruct (list_eq_dec Nat.eq_dec (q_shape a) (q_shape b)); split; auto; discriminate. }
  rewrite S1. apply and_iff_compat_l. split.
  - intros G. apply list_ext with (d := []).
    + rewrite !map_length, !tc_entries_length; auto.
    + intros i Hi. rewrite map_length, tc_entries_length in Hi by auto. rewrite !N by (auto; lia). apply G. lia.
  - intros G k Hk. rewrite <- !N by (auto; lia). now rewrite G.
Qed.
Theorem C107_tensor_size (a b : tcoo F) : tc_same_size a b = true <-> q_shape a = q_shape b.
Proof. unfold tc_same_size. destruct (list_eq_dec Nat.eq_dec (q_shape a) (q_shape b)); split; auto; discriminate. Qed.
Theorem C107_coo_size (a b : coo F) : coo_same_size a b = true <-> c_row a = c_row b /\ c_col a = c_col b.
Proof. unfold coo_same_size. rewrite andb_true_iff, !Nat.eqb_eq. tauto. Qed.

End Facts.

(** ** counterexamples *)
Section Refuted.
Local Existing Instance Zscalar.
Local Existing Instance CrsMiscProof.one_thread.
Local Open Scope Z_scope.

(** a COO with one entry assigned from one with two: no error, the second entry is lost *)
Theorem C107_coo_assign_refuted :
  exists (a b a' : coo Z), coo_ok a /\ coo_ok b /\ coo_assign a b = Ok a' /\ coo_entries a' <> coo_entries b.
Proof.
  exists (mkCoo 2 2 [0%nat] [0%nat] [5] 1 1 true), (mkCoo 2 2 [0;1]%nat [0;1]%nat [7;8] 2 2 true), (mkCoo 2 2 [0%nat] [0%nat] [7] 1 1 true).
  repeat split; try (cbn; lia); discriminate.
Qed.
(** the other way round the assignment reads outside the source's arrays *)
Theorem C107_coo_assign_reads_outside :
  exists (a b : coo Z), coo_ok a /\ coo_ok b /\ coo_assign a b = UB.
Proof.
  exists (mkCoo 2 2 [0;1]%nat [0;1]%nat [7;8] 2 2 true), (mkCoo 2 2 [0%nat] [0%nat] [5] 1 1 true).
  repeat split; try (cbn; lia).
Qed.
(** two CRS matrices of the same size with one entry each, at different positions: A = B succeeds and A is not B *)
Theorem C107_crs_assign_refuted :
  exists (a b a' : crs Z), crs_of_arrays 2 2 1 [0;1;1]%nat [0%nat] [5] = Ok a /\ crs_of_arrays 2 2 1 [0;0;1]%nat [1%nat] [7] = Ok b /\
    crs_assign a b = Ok a' /\ crs_entries a' = [(0%nat,0%nat,7)] /\ crs_entries b = [(1%nat,1%nat,7)].
Proof. do 3 eexists. repeat split; vm_compute; reflexivity. Qed.
(** fill() of a CRS that starts at offset 1 of its buffer writes in front of its first value and leaves the last *)
Theorem C107_crs_fill_refuted :
  exists (a a' : crs Z), crs_ok a /\ crs_fill a 9 = Ok a' /\ crs_entries a = [(0%nat,0%nat,5);(0%nat,1%nat,6)] /\
    crs_entries a' = [(0%nat,0%nat,9);(0%nat,1%nat,6)].
Proof.
  exists (mkCrs 1 2 [0;2]%nat [0;1]%nat [4;5;6] 1 2 3 false 0%N). eexists. split; [|repeat split; vm_compute; reflexivity].
  unfold crs_ok, rpn, cin. cbn. repeat split; try lia; intros [|[|k]] H; cbn; lia.
Qed.
(** a == b is true when b has an extra entry *)
Theorem C107_tensor_equal_refuted :
  exists (a b : tcoo Z), tc_ok a /\ tc_ok b /\ tc_equal a b = Ok true /\ tc_entries a <> tc_entries b.
Proof.
  exists (mkTC [2;2]%nat [[0;0]%nat] [5] 1 1 true), (mkTC [2;2]%nat [[0;0];[1;1]]%nat [5;6] 2 2 true).
  repeat split; try (cbn; lia); discriminate.
Qed.
Theorem C107_tensor_equal_reads_outside : exists (a b : tcoo Z), tc_ok a /\ tc_ok b /\ tc_equal a b = UB.
Proof.
  exists (mkTC [2;2]%nat [[0;0];[1;1]]%nat [5;6] 2 2 true), (mkTC [2;2]%nat [[0;0]%nat] [5] 1 1 true).
  repeat split; try (cbn; lia).
Qed.
(** is_same_structure looks only at the leading coordinates of the second object *)
Theorem C107_tensor_structure_refuted :
  exists (a b : tcoo Z), tc_ok a /\ tc_ok b /\ tc_same_structure a b = Ok true /\ map fst (tc_entries a) <> map fst (tc_entries b).
Proof.
  exists (mkTC [2;2]%nat [[1]%nat] [5] 1 1 true), (mkTC [2;2]%nat [[1;1]%nat] [5] 1 1 true).
  repeat split; try (cbn; lia); discriminate.
Qed.

(** *** concrete cases *)
Example C107_coo_witness : coo_ok (mkCoo 2 2 [0%nat] [1%nat] [5] 1 1 true) /\
  (exists a', coo_set_ptr (mkCoo 2 2 [0%nat] [1%nat] [5] 1 1 true) 3 4 [2;0]%nat [3;1]%nat [8;9] = Ok a' /\
     coo_entries a' = [(2%nat,3%nat,8);(0%nat,1%nat,9)]).
Proof. split; [repeat split; cbn; lia|]. eexists. split; vm_compute; reflexivity. Qed.
Example C107_crs_witness : given_crs_ok 2 3 3 [0;2;3]%nat [0;2;1]%nat /\ crs_buf (crs_empty (F:=Z)) /\
  (exists a', crs_set_ptr crs_empty 2 3 [0;2;3]%nat [0;2;1]%nat [4;5;6] = Ok a' /\
     crs_entries a' = [(0%nat,0%nat,4);(0%nat,2%nat,5);(1%nat,1%nat,6)]).
Proof.
  split; [|split; [repeat split; cbn; lia|eexists; split; vm_compute; reflexivity]].
  unfold given_crs_ok. cbn. repeat split; try lia; intros [|[|[|k]]] H; cbn; lia.
Qed.
Example C107_tensor_witness : tc_ok (mkTC [2;2]%nat [[0;0];[1;1]]%nat [5;6] 2 2 true) /\
  tc_equal (mkTC [2;2]%nat [[0;0];[1;1]]%nat [5;6] 2 2 true) (mkTC [2;2]%nat [[0;0];[1;0]]%nat [5;6] 2 2 true) = Ok false.
Proof. split; [repeat split; cbn; lia|reflexivity]. Qed.
End Refuted.

Print Assumptions C107_coo_set_ptr.
Print Assumptions C107_coo_set_ptr_value.
Print Assumptions C107_coo_set_ptr_not_owned.
Print Assumptions C107_coo_fill.
Print Assumptions C107_coo_copy_value.
Print Assumptions C107_coo_assign_partial.
Print Assumptions C107_crs_set_ptr.
Print Assumptions C107_crs_set_ptr_value.
Print Assumptions C107_crs_fill_partial.
Print Assumptions C107_crs_assign_partial.
Print Assumptions C107_tensor_set_ptr.
Print Assumptions C107_tensor_set_ptr_value.
Print Assumptions C107_tensor_fill.
Print Assumptions C107_tensor_copy.
Print Assumptions C107_tensor_copy_value.
Print Assumptions C107_tensor_equal_partial.
Print Assumptions C107_tensor_structure_partial.
Print Assumptions C107_tensor_size.
Print Assumptions C107_coo_size.
Print Assumptions C107_coo_assign_refuted.
Print Assumptions C107_coo_assign_reads_outside.
Print Assumptions C107_crs_assign_refuted.
Print Assumptions C107_crs_fill_refuted.
Print Assumptions C107_tensor_equal_refuted.
Print Assumptions C107_tensor_equal_reads_outside.
Print Assumptions C107_tensor_structure_refuted.
