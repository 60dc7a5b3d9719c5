(** * PropertiesLife: C120, shared storage and the lifetime of views. *)
From Verif Require Import Base LifeModel LifeSpec LifeProof.
Set Implicit Arguments.

Section Life.
Context {F : Type} (d : F).

(** storage is freed exactly when no living object holds it: nothing leaks and nothing is freed too early *)
Theorem C120_owned (w : world (F:=F)) b : reached d w -> (live (w_heap w) b <> None <-> exists i o, getobj w i = Some o /\ ob_buf o = b).
Proof.
  intros R. pose proof (reached_inv R) as I. rewrite live_refs. split.
  - destruct I as [I1 _]. rewrite I1. intros H. destruct (cnt_pos _ _ H) as (i & o & H1 & H2). exists i, o. split; [|exact H2]. unfold getobj. now rewrite H1.
  - intros (i & o & H1 & <-). eapply inv_refs; eauto.
Qed.
(** so every call on a living object, whatever it shares its storage with and in whatever order the others were destroyed,
    is defined as long as its index is in range *)
Theorem C120_safe (w : world (F:=F)) i o : reached d w -> getobj w i = Some o ->
  (forall k, k < ob_nnz o -> exists x, says d w (Get i k) = Some (Value x)) /\
  (forall k x, k < ob_nnz o -> says d w (Set_ i k x) = Some Done) /\
  (forall n x, says d w (Resize i n x) <> None) /\
  (forall x, ob_class o = Vec -> says d w (Push i x) <> None) /\ says d w (Destroy i) = Some Done.
Proof.
  intros R Hi. pose proof (reached_inv R) as I. destruct (inv_live _ I Hi) as (l & c & El & Hl). pose proof (inv_refs _ I Hi) as Hr.
  assert (HL : len (w_heap w) (ob_buf o) = length l) by (unfold len; now rewrite El).
  unfold says. cbn [step]. rewrite Hi. repeat split.
  - intros k Hk. destruct (@load_ok F (w_heap w) (ob_buf o) k Hr) as [x ->]; [lia|]. exists x. reflexivity.
  - intros k x Hk. destruct (@store_ok F (w_heap w) (ob_buf o) k x Hr) as [h' ->]; [lia|]. reflexivity.
  - intros n x. destruct (match ob_class o with Tens => _ | Vec => _ end) eqn:Ec.
    + rewrite El. destruct (ob_class o); [discriminate|]. apply Nat.ltb_lt in Ec. rewrite (proj2 (Nat.leb_le n (length l))) by lia. rewrite orb_true_r. discriminate.
    + destruct (ob_own o); [|discriminate]. destruct (@realloc_def F _ o n x l c El) as [[h' o'] ->]; [lia|discriminate].
  - intros x ->. destruct (ob_own o); [|discriminate]. destruct (Nat.leb_spec (ob_alloc o) (ob_nnz o)).
    + destruct (@realloc_def F _ o (2 * ob_alloc o + 1) d l c El) as [[h' o'] Er]; [lia|]. rewrite Er. cbn [ob_buf ob_nnz ob_class ob_alloc ob_own].
      pose proof (fun H => @realloc_ok _ _ _ _ _ _ _ H Er) as RK. specialize (RK ltac:(lia)). destruct RK as (R1 & R2 & R3 & R4 & R5 & R6 & R7 & _).
      assert (Q : 0 < refs h' (ob_buf o')). { specialize (R1 (ob_buf o')). cbn [has] in R1. rewrite Nat.eqb_refl in R1. destruct (Nat.eqb_spec (ob_buf o) (ob_buf o')) as [e|]; [|lia]. apply nth_error_len in El. lia. }
      destruct (@store_ok F h' (ob_buf o') (ob_nnz o) x Q) as [h2 ->]; [lia|discriminate].
    + destruct (@store_ok F (w_heap w) (ob_buf o) (ob_nnz o) x Hr) as [h2 ->]; [lia|discriminate].
Qed.

(** A view made of existing elements shows its target, and writes to it, through any program that leaves the target's storage
    in place. *)
Theorem C120_view (w0 w1 w : world (F:=F)) i o s n h rs : reached d w0 -> getobj w0 i = Some o -> s + n <= ob_nnz o ->
  step d (View i s n) w0 = Some (w1, Done) -> all_in_place d i h w1 -> exec d h w1 = Some (w, rs) ->
  let v := length (w_views w0) in
  forall k, k < n -> (exists x, says d w (VGet v k) = Some (Value x) /\ says d w (Get i (s + k)) = Some (Value x)) /\
    (forall x, step d (VSet v k x) w = step d (Set_ i (s + k) x) w /\ says d w (VSet v k x) = Some Done).
Proof.
  intros R Hi Hn S P E v k Hk. pose proof (reached_inv R) as I. cbn [step] in S. rewrite Hi in S. injection S as <-.
  set (w1 := mkWorld (w_heap w0) (w_objs w0) _) in *.
  assert (I1 : inv w1) by (apply (inv_heap (w:=w0)); auto).
  assert (Hv : nth_error (w_views w1) v = Some (mkView i (ob_buf o) s n)) by (cbn [w1 w_views]; subst v; rewrite nth_error_app2, Nat.sub_diag by lia; reflexivity).
  destruct (@exec_at F d h w1 w rs i o (ob_buf o) I1 Hi eq_refl P E) as (o' & H1 & H2).
  assert (Hb : ob_buf o < length (w_heap w1)) by (apply refs_len; exact (inv_refs _ I Hi)).
  destruct (@exec_views F d h w1 w rs v _ (ob_buf o) I1 Hb Hv E) as [([vt vb vf vr] & V & (V1 & V2 & V3)) L]. cbn [vw_target vw_buf vw_first] in V1, V2, V3. subst vt vb vf.
  assert (I2 : inv w) by (eapply exec_inv; eauto). pose proof (inv_refs _ I2 H1) as Hr. rewrite H2 in Hr.
  pose proof (proj2 I _ _ Hi) as Fo. unfold fits in Fo. change (w_heap w0) with (w_heap w1) in Fo. rewrite <- L in Fo.
  unfold says. cbn [step]. rewrite V, H1. cbn [vw_target vw_buf vw_first]. rewrite H1, H2, (Nat.add_comm k s).
  split; [|intros x; split].
  - destruct (@load_ok F (w_heap w) (ob_buf o) (s + k) Hr) as [x ->]; [lia|]. exists x. split; reflexivity.
  - destruct (store _ _ _ _); reflexivity.
  - destruct (@store_ok F (w_heap w) (ob_buf o) (s + k) x Hr) as [h' ->]; [lia|reflexivity].
Qed.
(** using a view is defined exactly if its target still exists and some object still holds the storage it was made on *)
Theorem C120_view_defined (w : world (F:=F)) v u k : reached d w -> nth_error (w_views w) v = Some u ->
  (says d w (VGet v k) <> None <-> (exists o, getobj w (vw_target u) = Some o) /\ (exists i o, getobj w i = Some o /\ ob_buf o = vw_buf u) /\ k + vw_first u < len (w_heap w) (vw_buf u)).
Proof.
  intros R Hv. unfold says. cbn [step]. rewrite Hv. rewrite <- (C120_owned (vw_buf u) R), live_refs. split.
  - destruct (getobj w (vw_target u)) as [o|]; [|intros H; now destruct H]. destruct (load _ _ _) as [x|] eqn:El; [|intros H; now destruct H]. intros _. split; [eauto|].
    unfold load, live in El. unfold refs, len. destruct (nth_error (w_heap w) (vw_buf u)) as [[l [|c]]|]; try discriminate. split; [lia|]. eapply nth_error_len; eauto.
  - intros ((o & ->) & Hr & Hk). destruct (@load_ok F _ _ _ Hr Hk) as [x ->]. discriminate.
Qed.
Theorem C120_view_write_defined (w : world (F:=F)) v u k x : reached d w -> nth_error (w_views w) v = Some u ->
  (says d w (VSet v k x) <> None <-> says d w (VGet v k) <> None).
Proof.
  intros R Hv. unfold says. cbn [step]. rewrite Hv. destruct (getobj w (vw_target u)) as [o|]; [|tauto]. unfold store, load, live.
  destruct (nth_error (w_heap w) (vw_buf u)) as [[l [|c]]|]; [tauto| |tauto]. destruct (Nat.ltb_spec (k + vw_first u) (length l)) as [H|H].
  - destruct (nth_error l (k + vw_first u)) eqn:E; [split; discriminate|]. apply nth_error_None in E. lia.
  - rewrite (proj2 (nth_error_None l _)) by lia. tauto.
Qed.
(** resizing a vector that shares its storage with nobody makes all earlier views of it unusable *)
Theorem C120_resize_ends_views (w w' : world (F:=F)) i o n x v u r : reached d w -> getobj w i = Some o -> ob_class o = Vec -> ob_own o = true ->
  (forall j o', getobj w j = Some o' -> ob_buf o' = ob_buf o -> j = i) -> nth_error (w_views w) v = Some u -> vw_buf u = ob_buf o ->
  step d (Resize i n x) w = Some (w', r) -> forall k, says d w' (VGet v k) = None /\ forall y, says d w' (VSet v k y) = None.
Proof.
  intros R Hi Hc Ho Hu Hv Hb S k. pose proof (reached_inv R) as I. pose proof (@step_inv F d (Resize i n x) w w' r I S) as I'. destruct (@step_views F d (Resize i n x) w w' r v u Hv S) as (u' & Hv' & _ & Hv2 & _). rewrite <- Hv2 in Hb.
  pose proof (nth_error_len _ _ (getobj_nth _ _ Hi)) as Hlen.
  assert (N : refs (w_heap w') (ob_buf o) = 0).
  { destruct (refs (w_heap w') (ob_buf o)) as [|z] eqn:Ez; [reflexivity|]. exfalso. destruct I' as [I1 _]. rewrite I1 in Ez.
    destruct (@cnt_pos (w_objs w') (ob_buf o)) as (j & o' & H1 & H2); [lia|].
    cbn [step] in S. rewrite Hi, Hc, Ho in S. destruct (realloc _ _ _ _) as [[h' o2]|] eqn:Er; [|discriminate]. injection S as <- <-. cbn [setobj w_objs] in H1.
    pose proof (proj2 I _ _ Hi) as Fo. unfold fits in Fo. pose proof (fun H => @realloc_ok _ _ _ _ _ _ _ H Er) as RK. specialize (RK ltac:(lia)). destruct RK as (_ & _ & _ & _ & _ & _ & R7 & _).
    rewrite nth_error_upd in H1. rewrite (proj2 (Nat.ltb_lt _ _) Hlen), andb_true_r in H1. destruct (Nat.eqb_spec i j) as [E|E].
    - injection H1 as <-. pose proof (refs_len _ _ (inv_refs _ I Hi)). lia.
    - apply E. symmetry. apply (Hu j o'); [unfold getobj; now rewrite H1|exact H2]. }
  unfold says. cbn [step]. rewrite Hv', Hb. unfold load, live, store. unfold refs in N.
  destruct (getobj w' (vw_target u')); [|split; reflexivity]. destruct (nth_error (w_heap w') (ob_buf o)) as [[l [|c]]|]; try discriminate; split; reflexivity.
Qed.

(** two objects, one moved from the other, are one storage until one of them is resized or pushed onto a full vector: what
    is read through one is what is read through the other, and writing through either is the same *)
Theorem C120_shared (w0 w1 w : world (F:=F)) i c h rs : reached d w0 -> step d (Share c i) w0 = Some (w1, Done) ->
  let j := length (w_objs w0) in all_in_place d i h w1 -> all_in_place d j h w1 -> exec d h w1 = Some (w, rs) ->
  forall k, says d w (Get i k) = says d w (Get j k) /\ (forall x, step d (Set_ i k x) w = step d (Set_ j k x) w).
Proof.
  intros R S j P1 P2 E k. assert (I1 : inv w1) by (eapply step_inv; [exact (reached_inv R)|exact S]). cbn [step] in S.
  destruct (getobj w0 i) as [o|] eqn:Hi; [|discriminate].
  assert (E1 : w1 = mkWorld (acquire (w_heap w0) (ob_buf o)) (w_objs w0 ++ [Some (mkObj c (ob_buf o) (ob_nnz o) (ob_alloc o) false)]) (w_views w0)) by (destruct c, (ob_class o); congruence).
  pose proof (nth_error_len _ _ (getobj_nth _ _ Hi)) as Hlen.
  assert (G1 : getobj w1 i = Some o) by (rewrite E1, getobj_app; destruct (Nat.eqb_spec i (length (w_objs w0))); [lia|exact Hi]).
  assert (G2 : getobj w1 j = Some (mkObj c (ob_buf o) (ob_nnz o) (ob_alloc o) false)) by (rewrite E1, getobj_app; subst j; now rewrite Nat.eqb_refl).
  destruct (@exec_at F d h w1 w rs i o (ob_buf o) I1 G1 eq_refl P1 E) as (o1 & A1 & B1).
  destruct (@exec_at F d h w1 w rs j _ (ob_buf o) I1 G2 eq_refl P2 E) as (o2 & A2 & B2).
  unfold says. cbn [step]. rewrite A1, A2, B1, B2. split; [reflexivity|intros x; reflexivity].
Qed.
(** destroying one object changes nothing for the others *)
Theorem C120_destroy_others (w w' : world (F:=F)) i j o k : reached d w -> step d (Destroy i) w = Some (w', Done) -> i <> j -> getobj w j = Some o -> says d w' (Get j k) = says d w (Get j k).
Proof.
  intros R S Hij Hj. pose proof (reached_inv R) as I. cbn [step] in S. destruct (getobj w i) as [q|] eqn:Hi; [|discriminate]. injection S as <-.
  unfold says. cbn [step]. rewrite getobj_set by congruence. destruct (Nat.eqb_spec i j); [contradiction|]. rewrite Hj. cbn [setobj w_heap].
  destruct (inv_live _ I Hj) as (l & c & El & _). pose proof (inv_refs _ I Hi) as Hr.
  assert (Q : load (release (w_heap w) (ob_buf q)) (ob_buf o) k = load (w_heap w) (ob_buf o) k).
  { unfold load, live, release. destruct (nth_error (w_heap w) (ob_buf q)) as [[lq cq]|] eqn:Eq; [|reflexivity]. rewrite nth_error_upd.
    rewrite (proj2 (Nat.ltb_lt _ _) (nth_error_len _ _ Eq)), andb_true_r. destruct (Nat.eqb_spec (ob_buf q) (ob_buf o)) as [e|e]; [|reflexivity].
    rewrite e in Eq. rewrite El in Eq. injection Eq as <- <-. rewrite El.
    destruct c as [|c]; [|reflexivity]. exfalso. assert (C : refs (w_heap w) (ob_buf o) = 1) by (unfold refs; now rewrite El). destruct I as [I1 _]. rewrite I1 in C.
    pose proof (cnt_upd (w_objs w) i None (ob_buf o) (getobj_nth _ _ Hi)) as C1. cbn [has] in C1. rewrite e, Nat.eqb_refl in C1.
    assert (C2 : 0 < cnt (upd (w_objs w) i None) (ob_buf o)). { apply (@cnt_ge _ _ j o); [|reflexivity]. rewrite nth_error_upd. destruct (Nat.eqb_spec i j); [contradiction|]. cbn [andb]. now apply getobj_nth. }
    lia. }
  destruct (load (release (w_heap w) (ob_buf q)) (ob_buf o) k); destruct (load (w_heap w) (ob_buf o) k); try discriminate; [now injection Q as <-|reflexivity].
Qed.
(** ** the elements *)
(** a new object holds what it was made from *)
Theorem C120_new (w w' : world (F:=F)) c l r : step d (New c l) w = Some (w', r) -> exists o, getobj w' (length (w_objs w)) = Some o /\ ob_nnz o = length l /\ ob_alloc o = length l /\
  forall k, says d w' (Get (length (w_objs w)) k) = option_map Value (nth_error l k).
Proof.
  cbn [step]. intros [= <- <-]. eexists. rewrite getobj_app, Nat.eqb_refl. split; [reflexivity|]. split; [reflexivity|]. split; [reflexivity|]. intros k.
  erewrite says_get by (rewrite getobj_app, Nat.eqb_refl; reflexivity). cbn [w_heap ob_buf]. now rewrite load_new.
Qed.
(** writing an element changes that element of the objects with that storage and nothing else *)
Theorem C120_set (w w' : world (F:=F)) i j k k' x o o' r : getobj w i = Some o -> getobj w j = Some o' -> step d (Set_ i k x) w = Some (w', r) ->
  says d w' (Get j k') = if (ob_buf o =? ob_buf o') && (k =? k') then Some (Value x) else says d w (Get j k').
Proof.
  intros Hi Hj. cbn [step]. rewrite Hi. destruct (store _ _ _ _) as [h'|] eqn:E; [|discriminate]. intros [= <- <-].
  rewrite (says_get d w j k' Hj), (says_get d (mkWorld h' (w_objs w) (w_views w)) j k' (o:=o') Hj). cbn [w_heap]. rewrite (@load_store F _ _ _ _ _ (ob_buf o') k' E). now destruct (_ && _).
Qed.
(** resize keeps the elements and writes x to the new ones; a tensor stays in place below get_alloc_nnz(), which then does
    not change.  Reallocating changes no other object. *)
Theorem C120_resize (w w' : world (F:=F)) i o n x : reached d w -> getobj w i = Some o -> step d (Resize i n x) w = Some (w', Done) ->
  let stays := match ob_class o with Tens => n <? ob_alloc o | Vec => false end in
  exists o', getobj w' i = Some o' /\ ob_class o' = ob_class o /\ ob_own o' = ob_own o /\ ob_nnz o' = n /\ ob_alloc o' = (if stays then ob_alloc o else n) /\ (ob_buf o' = ob_buf o <-> stays = true) /\
    (forall k, k < n -> says d w' (Get i k) = if k <? ob_nnz o then says d w (Get i k) else Some (Value x)) /\
    (forall j q k, stays = false -> j <> i -> getobj w j = Some q -> says d w' (Get j k) = says d w (Get j k)).
Proof.
  intros R Hi S stays. pose proof (reached_inv R) as I. destruct (inv_live _ I Hi) as (l & c & El & Hl). cbn [step] in S. rewrite Hi in S. fold stays in S.
  assert (Hnn : getobj w i <> None) by congruence. destruct stays eqn:Es.
  - assert (Hc : n < ob_alloc o) by (subst stays; destruct (ob_class o); [discriminate|now apply Nat.ltb_lt]).
    rewrite El in S. destruct (_ || _); [|discriminate]. injection S as <-. eexists. rewrite getobj_set, Nat.eqb_refl by exact Hnn. split; [reflexivity|]. cbn [ob_class ob_own ob_nnz ob_alloc ob_buf].
    do 4 (split; [reflexivity|]). split; [tauto|]. split; [|discriminate]. intros k Hk.
    erewrite says_get by (rewrite getobj_set, Nat.eqb_refl by exact Hnn; reflexivity). rewrite (says_get d w i k Hi). cbn [setobj w_heap ob_buf]. unfold load, live.
    rewrite nth_error_upd, Nat.eqb_refl, (proj2 (Nat.ltb_lt _ _) (nth_error_len _ _ El)), El. cbn [andb]. destruct (Nat.leb_spec n (ob_nnz o)).
    + destruct (Nat.ltb_spec k (ob_nnz o)); [reflexivity|lia].
    + rewrite load_fill by lia. destruct (k <? ob_nnz o); reflexivity.
  - destruct (ob_own o) eqn:Eo; [|discriminate]. destruct (realloc _ _ _ _) as [[h' o']|] eqn:Er; [|discriminate]. injection S as <-.
    pose proof (proj2 I _ _ Hi) as Fo. unfold fits in Fo. pose proof (fun H => @realloc_ok _ _ _ _ _ _ _ H Er) as RK. specialize (RK ltac:(lia)). destruct RK as (_ & _ & R3 & R4 & R5 & _ & R7 & R8 & _).
    exists o'. rewrite getobj_set, Nat.eqb_refl by exact Hnn. split; [reflexivity|]. split; [exact R3|]. split; [congruence|]. split; [exact R4|]. split; [exact R5|].
    pose proof (refs_len _ _ (inv_refs _ I Hi)) as Hb. split; [split; [intros; lia|discriminate]|]. split.
    + intros k Hk. rewrite (says_get d _ i k (o:=o')) by (rewrite getobj_set, Nat.eqb_refl by exact Hnn; reflexivity). rewrite (says_get d w i k Hi). cbn [setobj w_heap].
      pose proof (fun H => @load_realloc F _ _ _ _ _ _ k H Er Hk) as LR. rewrite LR by lia. now destruct (k <? ob_nnz o).
    + intros j q k _ Hij Hj. rewrite (says_get d _ j k (o:=q)) by (rewrite getobj_set by exact Hnn; destruct (Nat.eqb_spec i j); [congruence|exact Hj]). rewrite (says_get d w j k Hj). cbn [setobj w_heap].
      pose proof (fun H => @realloc_others F _ _ _ _ _ _ (ob_buf q) k H Er) as LR. rewrite LR; [reflexivity|lia|exact (refs_len _ _ (inv_refs _ I Hj))|].
      intros e. rewrite <- e. apply (@two_refs F w i j q o I); auto.
Qed.
(** push_back keeps the elements and appends x; a full vector gets twice its allocation plus one *)
Theorem C120_push (w w' : world (F:=F)) i o x : reached d w -> getobj w i = Some o -> step d (Push i x) w = Some (w', Done) ->
  exists o', getobj w' i = Some o' /\ ob_nnz o' = S (ob_nnz o) /\ ob_alloc o' = (if ob_alloc o <=? ob_nnz o then 2 * ob_alloc o + 1 else ob_alloc o) /\
    says d w' (Get i (ob_nnz o)) = Some (Value x) /\ forall k, k < ob_nnz o -> says d w' (Get i k) = says d w (Get i k).
Proof.
  intros R Hi S. pose proof (reached_inv R) as I. pose proof (proj2 I _ _ Hi) as Fo. unfold fits in Fo. cbn [step] in S. rewrite Hi in S. destruct (ob_class o); [|discriminate]. destruct (ob_own o) eqn:Eo; [|discriminate].
  assert (Hnn : getobj w i <> None) by congruence.
  destruct (Nat.leb_spec (ob_alloc o) (ob_nnz o)) as [Hf|Hf].
  - destruct (realloc _ _ _ _) as [[h' o']|] eqn:Er; [|discriminate]. cbn [ob_buf ob_nnz ob_class ob_alloc ob_own] in S. destruct (store _ _ _ _) as [h2|] eqn:Est; [|discriminate]. injection S as <-.
    pose proof (fun H => @realloc_ok _ _ _ _ _ _ _ H Er) as RK. specialize (RK ltac:(lia)). destruct RK as (_ & _ & R3 & R4 & R5 & _ & R7 & R8 & _).
    eexists. rewrite getobj_set, Nat.eqb_refl by exact Hnn. split; [reflexivity|]. cbn [ob_nnz ob_alloc]. split; [lia|]. split; [exact R5|].
    assert (G : forall k, says d (setobj w h2 i (Some (mkObj (ob_class o') (ob_buf o') (ob_nnz o + 1) (ob_alloc o') (ob_own o')))) (Get i k) = option_map Value (load h2 (ob_buf o') k)).
    { intros k. erewrite says_get by (rewrite getobj_set, Nat.eqb_refl by exact Hnn; reflexivity). reflexivity. }
    split; [|intros k Hk]; rewrite G, (@load_store F _ _ _ _ _ (ob_buf o') _ Est), Nat.eqb_refl; cbn [andb]; [now rewrite Nat.eqb_refl|].
    destruct (Nat.eqb_spec (ob_nnz o) k); [lia|]. rewrite (says_get d w i k Hi). pose proof (fun H H' => @load_realloc F _ _ _ _ _ _ k H Er H') as LR. rewrite LR by lia.
    destruct (Nat.ltb_spec k (ob_nnz o)); [reflexivity|lia].
  - destruct (store _ _ _ _) as [h2|] eqn:Est; [|discriminate]. injection S as <-.
    eexists. rewrite getobj_set, Nat.eqb_refl by exact Hnn. split; [reflexivity|]. cbn [ob_nnz ob_alloc]. split; [lia|]. split; [reflexivity|].
    split; [|intros k Hk]; erewrite says_get by (rewrite getobj_set, Nat.eqb_refl by exact Hnn; reflexivity); cbn [setobj w_heap ob_buf]; rewrite (@load_store F _ _ _ _ _ (ob_buf o) _ Est), Nat.eqb_refl; cbn [andb]; [now rewrite Nat.eqb_refl|].
    destruct (Nat.eqb_spec (ob_nnz o) k); [lia|]. now rewrite (says_get d w i k Hi).
Qed.
(** an object that shares its storage by move has the size of the other and cannot grow: push_back and a resize that does not
    stay in place throw and change nothing *)
Theorem C120_no_owner (w w' : world (F:=F)) c i o r : getobj w i = Some o -> step d (Share c i) w = Some (w', r) ->
  let j := length (w_objs w) in (forall k, says d w' (Get j k) = says d w' (Get i k)) /\
  (exists q, getobj w' j = Some q /\ ob_nnz q = ob_nnz o /\ ob_alloc q = ob_alloc o /\ ob_own q = false) /\
  (forall n x, c = Vec \/ ob_alloc o <= n -> step d (Resize j n x) w' = Some (w', Threw)) /\ (forall x, c = Vec -> step d (Push j x) w' = Some (w', Threw)).
Proof.
  intros Hi S j. cbn [step] in S. rewrite Hi in S.
  assert (E1 : w' = mkWorld (acquire (w_heap w) (ob_buf o)) (w_objs w ++ [Some (mkObj c (ob_buf o) (ob_nnz o) (ob_alloc o) false)]) (w_views w)) by (destruct c, (ob_class o); congruence).
  pose proof (nth_error_len _ _ (getobj_nth _ _ Hi)) as Hlen.
  assert (G1 : getobj w' i = Some o) by (rewrite E1, getobj_app; destruct (Nat.eqb_spec i (length (w_objs w))); [lia|exact Hi]).
  assert (G2 : getobj w' j = Some (mkObj c (ob_buf o) (ob_nnz o) (ob_alloc o) false)) by (rewrite E1, getobj_app; subst j; now rewrite Nat.eqb_refl).
  split; [intros k; now rewrite (says_get d w' j k G2), (says_get d w' i k G1)|]. split; [eexists; split; [exact G2|auto]|]. cbn [step]. rewrite G2. cbn [ob_class ob_own ob_alloc]. split.
  - intros n x [-> | Hn]; [reflexivity|]. destruct c; [reflexivity|]. rewrite (proj2 (Nat.ltb_ge _ _) Hn). reflexivity.
  - intros x ->. reflexivity.
Qed.
(** a copy has the elements of the original, owns its storage and shares it with nobody *)
Theorem C120_copy (w : world (F:=F)) i o : reached d w -> getobj w i = Some o -> exists w' q, let j := length (w_objs w) in
  step d (Copy i) w = Some (w', Done) /\ getobj w' j = Some q /\ ob_class q = ob_class o /\ ob_nnz q = ob_nnz o /\ ob_own q = true /\
  (forall k, k < ob_nnz o -> says d w' (Get j k) = says d w (Get i k)) /\ (forall m p, m <> j -> getobj w' m = Some p -> ob_buf p <> ob_buf q /\ getobj w m = Some p /\ forall k, says d w' (Get m k) = says d w (Get m k)).
Proof.
  intros R Hi. pose proof (reached_inv R) as I. destruct (inv_live _ I Hi) as (l & c & El & Hl). cbn [step]. rewrite Hi, (elements_def _ _ El) by lia.
  do 2 eexists. split; [reflexivity|]. rewrite getobj_app, Nat.eqb_refl. split; [reflexivity|]. do 3 (split; [reflexivity|]). split.
  - intros k Hk. erewrite says_get by (rewrite getobj_app, Nat.eqb_refl; reflexivity). rewrite (says_get d w i k Hi). cbn [w_heap ob_buf]. rewrite load_new. unfold load, live. rewrite El.
    rewrite nth_error_firstn_lt by exact Hk. reflexivity.
  - intros m p Hm Hp. rewrite getobj_app in Hp. destruct (Nat.eqb_spec m (length (w_objs w))); [contradiction|]. pose proof (refs_len _ _ (inv_refs _ I Hp)) as Hb. cbn [ob_buf]. split; [lia|]. split; [exact Hp|]. intros k.
    rewrite (says_get d _ m k (o:=p)) by (rewrite getobj_app; destruct (Nat.eqb_spec m (length (w_objs w))); [contradiction|exact Hp]). rewrite (says_get d w m k Hp). cbn [w_heap]. now rewrite load_app.
Qed.
(** assignment needs equal sizes and then writes the elements into the storage of the left-hand side, for all who share it;
    from then on that object counts as the owner *)
Theorem C120_assign (w : world (F:=F)) i j o q : reached d w -> getobj w i = Some o -> getobj w j = Some q -> ob_class o = ob_class q -> 
  (ob_nnz o <> ob_nnz q -> step d (Assign i j) w = None) /\
  (ob_nnz o = ob_nnz q -> exists w', step d (Assign i j) w = Some (w', Done) /\ getobj w' i = Some (mkObj (ob_class o) (ob_buf o) (ob_nnz o) (ob_alloc o) true) /\
    forall m p k, getobj w m = Some p -> says d w' (Get m k) = if (ob_buf p =? ob_buf o) && (k <? ob_nnz o) then says d w (Get j k) else says d w (Get m k)).
Proof.
  intros R Hi Hj Hc. pose proof (reached_inv R) as I. destruct (inv_live _ I Hi) as (l0 & c0 & E0 & H0). destruct (inv_live _ I Hj) as (l & c & El & Hl). cbn [step]. rewrite Hi, Hj, Hc.
  assert (Q : same_class (ob_class q) (ob_class q) = true) by now destruct (ob_class q). rewrite Q. cbn [andb]. split; intros Hn.
  - now rewrite (proj2 (Nat.eqb_neq _ _) Hn).
  - rewrite (proj2 (Nat.eqb_eq _ _) Hn), (elements_def _ _ El) by lia. rewrite E0, (proj2 (Nat.leb_le (ob_nnz o) (length l0))) by lia. eexists. split; [reflexivity|].
    assert (Hnn : getobj w i <> None) by congruence. split; [now rewrite getobj_set, Nat.eqb_refl by exact Hnn|]. intros m p k Hp.
    assert (G : forall h, says d (setobj w h i (Some (mkObj (ob_class q) (ob_buf o) (ob_nnz o) (ob_alloc o) true))) (Get m k) = option_map Value (load h (ob_buf p) k)).
    { intros h. unfold says. cbn [step]. rewrite getobj_set by exact Hnn. destruct (Nat.eqb_spec i m) as [->|]; [|rewrite Hp; cbn [setobj w_heap]; now destruct (load h _ _)].
      assert (p = o) by congruence. subst p. cbn [setobj w_heap ob_buf]. now destruct (load h _ _). }
    rewrite G, (says_get d w j k Hj), (says_get d w m k Hp). unfold load, live. rewrite nth_error_upd, (proj2 (Nat.ltb_lt _ _) (nth_error_len _ _ E0)), andb_true_r, (Nat.eqb_sym (ob_buf o)).
    destruct (Nat.eqb_spec (ob_buf p) (ob_buf o)) as [e|]; cbn [andb]; [|reflexivity]. rewrite e, E0, El.
    destruct (Nat.ltb_spec k (ob_nnz o)) as [Hk|Hk].
    + rewrite nth_error_app1 by (rewrite firstn_length; lia). rewrite nth_error_firstn_lt by lia. reflexivity.
    + rewrite nth_error_app2 by (rewrite firstn_length; lia). rewrite firstn_length, Nat.min_l by lia. rewrite nth_error_skipn_add. do 2 f_equal. lia.
Qed.
(** filling a view whose target has not moved sets the elements of its window and no others *)
Theorem C120_view_fill (w : world (F:=F)) v u o x : reached d w -> nth_error (w_views w) v = Some u -> getobj w (vw_target u) = Some o -> ob_buf o = vw_buf u -> vw_first u + vw_range u <= ob_nnz o ->
  exists w', step d (VFill v x) w = Some (w', Done) /\ forall m p k, getobj w m = Some p ->
    says d w' (Get m k) = if (ob_buf p =? vw_buf u) && (vw_first u <=? k) && (k <? vw_first u + vw_range u) then Some (Value x) else says d w (Get m k).
Proof.
  intros R Hv Ho Hb Hr. pose proof (reached_inv R) as I. destruct (inv_live _ I Ho) as (l & c & El & Hl). cbn [step]. rewrite Hv, Ho. rewrite Hb in El.
  destruct (Nat.eqb_spec (vw_range u) 0) as [e|_].
  - exists w. split; [reflexivity|]. intros m p k _. destruct (Nat.leb_spec (vw_first u) k); destruct (Nat.ltb_spec k (vw_first u + vw_range u)); try lia; rewrite ?andb_false_r; reflexivity.
  - rewrite El, (proj2 (Nat.leb_le (vw_first u + vw_range u) (length l))) by lia. eexists. split; [reflexivity|]. intros m p k Hp.
    rewrite (says_get d w m k Hp), (says_get d (mkWorld _ (w_objs w) (w_views w)) m k (o:=p) Hp). cbn [w_heap]. unfold load, live.
    rewrite nth_error_upd, (proj2 (Nat.ltb_lt _ _) (nth_error_len _ _ El)), andb_true_r, (Nat.eqb_sym (vw_buf u)).
    destruct (Nat.eqb_spec (ob_buf p) (vw_buf u)) as [e|]; cbn [andb]; [|reflexivity]. rewrite e, El.
    destruct (Nat.ltb_spec k (vw_first u + vw_range u)) as [Hk|Hk].
    + rewrite load_fill by lia. destruct (Nat.ltb_spec k (vw_first u)); destruct (Nat.leb_spec (vw_first u) k); try lia; reflexivity.
    + rewrite andb_false_r. unfold fill. rewrite app_assoc, nth_error_app2 by (rewrite app_length, firstn_length, repeat_length; lia).
      rewrite app_length, firstn_length, repeat_length, nth_error_skipn_add. do 2 f_equal. lia.
Qed.
(** resizing a view needs the target to be long enough and changes the length of the window only *)
Theorem C120_view_resize (w : world (F:=F)) v u o n : nth_error (w_views w) v = Some u -> getobj w (vw_target u) = Some o ->
  (vw_first u + n <= ob_nnz o -> exists w' u', step d (VResize v n) w = Some (w', Done) /\ nth_error (w_views w') v = Some u' /\ vw_range u' = n /\ vw_first u' = vw_first u /\
    (forall v2, v2 <> v -> nth_error (w_views w') v2 = nth_error (w_views w) v2) /\ (forall v2 k, says d w' (VGet v2 k) = says d w (VGet v2 k)) /\ forall i k, says d w' (Get i k) = says d w (Get i k)) /\
  (ob_nnz o < vw_first u + n -> step d (VResize v n) w = None).
Proof.
  intros Hv Ho. cbn [step]. rewrite Hv, Ho. split; intros Hn.
  - rewrite (proj2 (Nat.leb_le _ _) Hn). do 2 eexists. split; [reflexivity|]. cbn [w_views]. pose proof (nth_error_len _ _ Hv) as Hl.
    assert (N : forall v2, nth_error (upd (w_views w) v (mkView (vw_target u) (vw_buf u) (vw_first u) n)) v2 = if v =? v2 then Some (mkView (vw_target u) (vw_buf u) (vw_first u) n) else nth_error (w_views w) v2).
    { intros v2. rewrite nth_error_upd, (proj2 (Nat.ltb_lt _ _) Hl), andb_true_r. reflexivity. }
    split; [rewrite N, Nat.eqb_refl; reflexivity|]. split; [reflexivity|]. split; [reflexivity|]. split; [|split].
    + intros v2 H. rewrite N. destruct (Nat.eqb_spec v v2); [congruence|reflexivity].
    + intros v2 k. unfold says. cbn [step w_views]. rewrite N. destruct (Nat.eqb_spec v v2) as [<-|].
      * rewrite Hv. cbn [vw_target vw_buf vw_first w_heap]. unfold getobj at 1. cbn [w_objs]. fold (getobj w (vw_target u)). rewrite Ho. destruct (load _ _ _); reflexivity.
      * destruct (nth_error (w_views w) v2) as [u2|]; [|reflexivity]. cbn [w_heap]. unfold getobj at 1. cbn [w_objs]. fold (getobj w (vw_target u2)). destruct (getobj w (vw_target u2)); [|reflexivity]. destruct (load _ _ _); reflexivity.
    + intros i k. unfold says. cbn [step w_heap]. unfold getobj at 1. cbn [w_objs]. fold (getobj w i). destruct (getobj w i); [|reflexivity]. destruct (load _ _ _); reflexivity.
  - now rewrite (proj2 (Nat.leb_gt _ _) Hn).
Qed.
(** moving into an existing object makes it share the storage of the other and leaves every other object as it was *)
Theorem C120_move_into (w : world (F:=F)) i j o q : reached d w -> getobj w i = Some o -> getobj w j = Some q -> i <> j -> ob_class o = Tens \/ ob_class q = Tens ->
  exists w', step d (Move i j) w = Some (w', Done) /\ getobj w' i = Some (mkObj (ob_class o) (ob_buf q) (ob_nnz q) (ob_alloc q) false) /\
    (forall k, says d w' (Get i k) = says d w (Get j k)) /\ forall m p k, m <> i -> getobj w m = Some p -> getobj w' m = Some p /\ says d w' (Get m k) = says d w (Get m k).
Proof.
  intros R Hi Hj Hij Hc. pose proof (reached_inv R) as I. cbn [step]. rewrite Hi, Hj, (proj2 (Nat.eqb_neq _ _) Hij).
  assert (E : match ob_class o, ob_class q with Vec, Vec => true | _, _ => false end = false) by (destruct (ob_class o), (ob_class q); destruct Hc; congruence).
  rewrite E. cbn [orb]. assert (Hnn : getobj w i <> None) by congruence. pose proof (inv_refs _ I Hj) as Rq. pose proof (refs_len _ _ Rq) as Lq.
  eexists. split; [reflexivity|]. split; [now rewrite getobj_set, Nat.eqb_refl by exact Hnn|]. split.
  - intros k. erewrite says_get by (rewrite getobj_set, Nat.eqb_refl by exact Hnn; reflexivity). rewrite (says_get d w j k Hj). cbn [setobj w_heap ob_buf].
    rewrite load_release, load_acquire by (try exact Rq; intros e; rewrite e, refs_acquire, Nat.eqb_refl by exact Lq; lia). reflexivity.
  - intros m p k Hm Hp. assert (G : forall h y, getobj (setobj w h i y) m = Some p) by (intros h y; rewrite getobj_set by exact Hnn; destruct (Nat.eqb_spec i m); [congruence|exact Hp]).
    split; [apply G|]. rewrite (says_get d _ m k (G _ _)), (says_get d w m k Hp). cbn [setobj w_heap].
    rewrite load_release, load_acquire; [reflexivity|exact Rq|]. intros e. rewrite refs_acquire by exact Lq.
    pose proof (@two_refs F w i m p o I (not_eq_sym Hm) Hi Hp e). lia.
Qed.
End Life.
Print Assumptions C120_new.
Print Assumptions C120_set.
Print Assumptions C120_resize.
Print Assumptions C120_push.
Print Assumptions C120_no_owner.
Print Assumptions C120_owned.
Print Assumptions C120_safe.
Print Assumptions C120_view.
Print Assumptions C120_view_defined.
Print Assumptions C120_view_write_defined.
Print Assumptions C120_resize_ends_views.
Print Assumptions C120_shared.
Print Assumptions C120_destroy_others.

(** ** concrete programs *)
Notation run h := (exec 0 h start).
(** a vector, a tensor moved from it and views of both; the vector is destroyed and the tensor lives on *)
Theorem C120_example : exists w0 w1 w rs0 rs,
  run [New Vec [1;2;3;4]; Share Tens 0] = Some (w0, rs0) /\ step 0 (View 1 1 3) w0 = Some (w1, Done) /\
  exec 0 [VSet 0 0 9; Get 0 1; Set_ 0 2 8; VGet 0 1; Destroy 0; Resize 1 3 5; VGet 0 1] w1 = Some (w, rs) /\
  all_in_place 0 1 [VSet 0 0 9; Get 0 1; Set_ 0 2 8; VGet 0 1; Destroy 0; Resize 1 3 5; VGet 0 1] w1 /\
  rs = [Done; Value 9; Done; Value 8; Done; Done; Value 8] /\ says 0 w (VGet 0 0) = Some (Value 9).
Proof.
  do 5 eexists. split; [vm_compute; reflexivity|]. split; [vm_compute; reflexivity|]. split; [vm_compute; reflexivity|]. split; [|split; vm_compute; reflexivity].
  repeat (cbn [all_in_place in_place]; split; [try exact I; try discriminate; try (intros _ o' [= <-]; split; [reflexivity|cbn; lia])|intros ? ? [= <- <-]]). exact I.
Qed.
(** False of the code: growing a vector ends its views without notice, by resize and by push_back *)
Theorem C120_view_dangling_refuted :
  (exists w rs, run [New Vec [1;2]; View 0 0 2; Resize 0 3 0] = Some (w, rs) /\ says 0 w (Get 0 1) = Some (Value 2) /\ says 0 w (VGet 0 1) = None) /\
  (exists w rs, run [New Vec [1;2]; View 0 0 2; Push 0 7] = Some (w, rs) /\ says 0 w (Get 0 1) = Some (Value 2) /\ says 0 w (VGet 0 1) = None).
Proof. split; do 2 eexists; (split; [vm_compute; reflexivity|split; vm_compute; reflexivity]). Qed.
(** False of the code: if a tensor shares the old storage, the view of the resized vector silently reads and writes the tensor *)
Theorem C120_view_stale_refuted : exists w rs w' rs', run [New Vec [1;2]; Share Tens 0; View 0 0 2; Resize 0 3 0; Set_ 0 0 5] = Some (w, rs) /\
  says 0 w (Get 0 0) = Some (Value 5) /\ says 0 w (VGet 0 0) = Some (Value 1) /\
  exec 0 [VSet 0 1 9] w = Some (w', rs') /\ says 0 w' (Get 0 1) = Some (Value 2) /\ says 0 w' (Get 1 1) = Some (Value 9).
Proof. do 4 eexists. repeat (split; [vm_compute; reflexivity|]). vm_compute; reflexivity. Qed.
(** False of the code: sharing ends silently when the owner is resized *)
Theorem C120_unshared_refuted : exists w rs, run [New Vec [1;2]; Share Tens 0; Resize 0 2 0; Set_ 0 0 5] = Some (w, rs) /\
  says 0 w (Get 0 0) = Some (Value 5) /\ says 0 w (Get 1 0) = Some (Value 1).
Proof. do 2 eexists. split; [vm_compute; reflexivity|split; vm_compute; reflexivity]. Qed.
(** False of the code: the tensor, resized within the allocation it shares, overwrites elements pushed onto the vector since *)
Theorem C120_clobber_refuted : exists w rs w' rs', run [New Vec [1;1]; Push 0 2; Share Tens 0; Push 0 7] = Some (w, rs) /\ says 0 w (Get 0 3) = Some (Value 7) /\
  exec 0 [Resize 1 4 0] w = Some (w', rs') /\ says 0 w' (Get 0 3) = Some (Value 0).
Proof. do 4 eexists. repeat (split; [vm_compute; reflexivity|]). vm_compute; reflexivity. Qed.
Print Assumptions C120_example.
Print Assumptions C120_view_dangling_refuted.
Print Assumptions C120_view_stale_refuted.
Print Assumptions C120_unshared_refuted.
Print Assumptions C120_clobber_refuted.
Print Assumptions C120_copy.
Print Assumptions C120_assign.
(** a vector moved from a tensor cannot be pushed onto, but after an assignment of the same size it can: the assignment writes
    the elements of the tensor, too, and makes the vector an owner; the push then silently ends the sharing *)
Theorem C120_assign_owner_refuted : exists w rs w' rs', run [New Tens [1;2]; Share Vec 0; New Vec [5;6]; Push 1 7; Assign 1 2] = Some (w, rs) /\ rs = [Done; Done; Done; Threw; Done] /\
  says 0 w (Get 0 1) = Some (Value 6) /\ exec 0 [Push 1 7; Set_ 1 0 9] w = Some (w', rs') /\ rs' = [Done; Done] /\ says 0 w' (Get 1 0) = Some (Value 9) /\ says 0 w' (Get 0 0) = Some (Value 5).
Proof. do 4 eexists. repeat (split; [vm_compute; reflexivity|]). vm_compute; reflexivity. Qed.
Print Assumptions C120_assign_owner_refuted.
Print Assumptions C120_view_fill.
Print Assumptions C120_view_resize.
(** a view of a tensor that a vector shares, shortened, filled; the tensor is destroyed (the view is then unusable) *)
Theorem C120_fill_example : exists w rs w' rs', run [New Vec [1;2;3;4]; Share Tens 0; View 1 1 3; VResize 0 2; VFill 0 9] = Some (w, rs) /\ map (fun k => says 0 w (Get 0 k)) [0;1;2;3] = map (fun x => Some (Value x)) [1;9;9;4] /\
  says 0 w (VResize 0 3) = Some Done /\ says 0 w (VResize 0 4) = None /\ exec 0 [Destroy 1] w = Some (w', rs') /\ says 0 w' (Get 0 1) = Some (Value 9) /\ says 0 w' (VGet 0 0) = None /\ says 0 w' (VFill 0 7) = None.
Proof. do 4 eexists. repeat (split; [vm_compute; reflexivity|]). vm_compute; reflexivity. Qed.
Print Assumptions C120_fill_example.
Print Assumptions C120_move_into.
(** moving into an object ends its views: they show freed storage, or the storage of whoever still shares it *)
Theorem C120_move_view_refuted :
  (exists w rs, run [New Tens [1;2]; New Vec [3;4]; View 0 0 2; Move 0 1] = Some (w, rs) /\ says 0 w (Get 0 0) = Some (Value 3) /\ says 0 w (VGet 0 0) = None) /\
  (exists w rs, run [New Tens [1;2]; New Vec [3;4]; Share Vec 0; View 0 0 2; Move 0 1] = Some (w, rs) /\ says 0 w (Get 0 0) = Some (Value 3) /\ says 0 w (VGet 0 0) = Some (Value 1)).
Proof. split; do 2 eexists; (split; [vm_compute; reflexivity|split; vm_compute; reflexivity]). Qed.
Print Assumptions C120_move_view_refuted.
