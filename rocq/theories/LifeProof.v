(** * LifeProof: lemmas for C120. *)
From Verif Require Import Base LifeModel LifeSpec.
Set Implicit Arguments.

Section LifeProof.
Context {F : Type} (d : F).
Notation heap := (list (list F * nat)).

Definition refs (h : heap) (b : nat) : nat := match nth_error h b with Some (_, c) => c | None => 0 end.
Definition has (b : nat) (o : option obj) : nat := match o with Some o => if ob_buf o =? b then 1 else 0 | None => 0 end.
Fixpoint cnt (os : list (option obj)) (b : nat) : nat := match os with [] => 0 | o :: os => has b o + cnt os b end.

Lemma cnt_app os o b : cnt (os ++ [o]) b = cnt os b + has b o.
Proof. induction os as [|x os IH]; cbn; lia. Qed.
Lemma cnt_upd os i o x b : nth_error os i = Some o -> cnt (upd os i x) b + has b o = cnt os b + has b x.
Proof. revert i. induction os as [|y os IH]; intros [|i] H; cbn in *; try discriminate; [injection H as ->; lia|]. specialize (IH _ H). lia. Qed.
Lemma cnt_pos os b : 0 < cnt os b -> exists i o, nth_error os i = Some (Some o) /\ ob_buf o = b.
Proof.
  induction os as [|y os IH]; cbn; intros H; [lia|]. destruct y as [o|]; cbn in H.
  - destruct (Nat.eqb_spec (ob_buf o) b) as [E|E]; [exists 0, o; auto|]. destruct IH as (i & o' & H1 & H2); [lia|]. exists (S i), o'. auto.
  - destruct IH as (i & o' & H1 & H2); [lia|]. exists (S i), o'. auto.
Qed.
Lemma cnt_ge os b i o : nth_error os i = Some (Some o) -> ob_buf o = b -> 0 < cnt os b.
Proof. revert i. induction os as [|y os IH]; intros [|i] H E; cbn in *; try discriminate; [injection H as ->; cbn; rewrite E, Nat.eqb_refl; lia|]. specialize (IH _ H E). lia. Qed.

Lemma refs_upd (h : heap) b l c b' : b < length h -> refs (upd h b (l, c)) b' = if b =? b' then c else refs h b'.
Proof. intros H. unfold refs. rewrite nth_error_upd. rewrite (proj2 (Nat.ltb_lt _ _) H), andb_true_r. now destruct (b =? b'). Qed.
Lemma refs_app (h : heap) l b : refs (h ++ [(l, 1)]) b = refs h b + (if length h =? b then 1 else 0).
Proof.
  unfold refs. destruct (Nat.eqb_spec (length h) b) as [<-|E].
  - rewrite nth_error_app2, Nat.sub_diag by lia. cbn. rewrite (proj2 (nth_error_None h (length h))) by lia. reflexivity.
  - destruct (Nat.ltb_spec b (length h)); [rewrite nth_error_app1 by lia; lia|]. rewrite (proj2 (nth_error_None (h ++ _) b)) by (rewrite app_length; cbn; lia).
    rewrite (proj2 (nth_error_None h b)) by lia. reflexivity.
Qed.
Lemma nth_error_len {A} (l : list A) i x : nth_error l i = Some x -> i < length l.
Proof. intros H. apply nth_error_Some. congruence. Qed.
Lemma refs_acquire (h : heap) b b' : b < length h -> refs (acquire h b) b' = refs h b' + (if b =? b' then 1 else 0).
Proof.
  intros H. unfold acquire. destruct (nth_error h b) as [[l c]|] eqn:E; [|apply nth_error_None in E; lia].
  rewrite refs_upd by exact H. destruct (Nat.eqb_spec b b') as [<-|]; [unfold refs; rewrite E|]; lia.
Qed.
Lemma refs_release (h : heap) b b' : refs (release h b) b' = refs h b' - (if b =? b' then 1 else 0).
Proof.
  unfold release. destruct (nth_error h b) as [[l c]|] eqn:E.
  - rewrite refs_upd by (eapply nth_error_len; eauto). destruct (Nat.eqb_spec b b') as [<-|]; [unfold refs; rewrite E|]; lia.
  - destruct (Nat.eqb_spec b b') as [<-|]; [unfold refs; rewrite E|]; lia.
Qed.
Lemma live_refs (h : heap) b : live h b <> None <-> 0 < refs h b.
Proof. unfold live, refs. destruct (nth_error h b) as [[l [|c]]|]; split; intros; try congruence; try lia; discriminate. Qed.
Lemma refs_store (h h' : heap) b k x b' : store h b k x = Some h' -> refs h' b' = refs h b'.
Proof.
  unfold store. destruct (nth_error h b) as [[l [|c]]|] eqn:E; try discriminate. destruct (k <? length l); [|discriminate]. intros [= <-].
  rewrite refs_upd by (eapply nth_error_len; eauto). destruct (Nat.eqb_spec b b') as [<-|]; [unfold refs; now rewrite E|reflexivity].
Qed.

(** ** lengths of allocations *)
Definition len (h : heap) (b : nat) : nat := match nth_error h b with Some (l, _) => length l | None => 0 end.
Lemma len_upd (h : heap) b l c b' : b < length h -> len (upd h b (l, c)) b' = if b =? b' then length l else len h b'.
Proof. intros H. unfold len. rewrite nth_error_upd. rewrite (proj2 (Nat.ltb_lt _ _) H), andb_true_r. now destruct (b =? b'). Qed.
Lemma len_acquire (h : heap) b b' : len (acquire h b) b' = len h b'.
Proof. unfold acquire. destruct (nth_error h b) as [[l c]|] eqn:E; [|reflexivity]. rewrite len_upd by (eapply nth_error_len; eauto). destruct (Nat.eqb_spec b b') as [<-|]; [unfold len; now rewrite E|reflexivity]. Qed.
Lemma len_release (h : heap) b b' : len (release h b) b' = len h b'.
Proof. unfold release. destruct (nth_error h b) as [[l c]|] eqn:E; [|reflexivity]. rewrite len_upd by (eapply nth_error_len; eauto). destruct (Nat.eqb_spec b b') as [<-|]; [unfold len; now rewrite E|reflexivity]. Qed.
Lemma len_store (h h' : heap) b k x b' : store h b k x = Some h' -> len h' b' = len h b'.
Proof.
  unfold store. destruct (nth_error h b) as [[l [|c]]|] eqn:E; try discriminate. destruct (k <? length l); [|discriminate]. intros [= <-].
  rewrite len_upd by (eapply nth_error_len; eauto). destruct (Nat.eqb_spec b b') as [<-|]; [unfold len; rewrite E; apply upd_length|reflexivity].
Qed.
Lemma len_app (h : heap) p b : b < length h -> len (h ++ [p]) b = len h b.
Proof. intros H. unfold len. now rewrite nth_error_app1. Qed.
Lemma len_new (h : heap) l c : len (h ++ [(l, c)]) (length h) = length l.
Proof. unfold len. rewrite nth_error_app2, Nat.sub_diag by lia. reflexivity. Qed.
Lemma length_acquire (h : heap) b : length (acquire h b) = length h.
Proof. unfold acquire. destruct (nth_error h b) as [[]|]; [apply upd_length|reflexivity]. Qed.
Lemma length_release (h : heap) b : length (release h b) = length h.
Proof. unfold release. destruct (nth_error h b) as [[]|]; [apply upd_length|reflexivity]. Qed.
Lemma length_store (h h' : heap) b k x : store h b k x = Some h' -> length h' = length h.
Proof. unfold store. destruct (nth_error h b) as [[l [|c]]|]; try discriminate. destruct (k <? _); [|discriminate]. intros [= <-]. apply upd_length. Qed.
Lemma refs_len (h : heap) b : 0 < refs h b -> b < length h.
Proof. unfold refs. destruct (nth_error h b) as [[l c]|] eqn:E; [|lia]. intros _. eapply nth_error_len; eauto. Qed.
Lemma fill_length (l : list F) a b x : a <= b -> b <= length l -> length (fill l a b x) = length l.
Proof. intros H1 H2. unfold fill. rewrite !app_length, firstn_length, repeat_length, skipn_length. lia. Qed.

(** ** the invariant *)
Definition fits (h : heap) (o : obj) : Prop := ob_nnz o <= ob_alloc o <= len h (ob_buf o).
Definition inv (w : world (F:=F)) : Prop :=
  (forall b, refs (w_heap w) b = cnt (w_objs w) b) /\ (forall i o, getobj w i = Some o -> fits (w_heap w) o).
Lemma getobj_nth (w : world (F:=F)) i o : getobj w i = Some o -> nth_error (w_objs w) i = Some (Some o).
Proof. unfold getobj. destruct (nth_error (w_objs w) i) as [[q|]|]; congruence. Qed.
Lemma inv_refs (w : world (F:=F)) i o : inv w -> getobj w i = Some o -> 0 < refs (w_heap w) (ob_buf o).
Proof. intros [I _] H. rewrite I. eapply cnt_ge; [apply getobj_nth; eauto|reflexivity]. Qed.
Lemma inv_live (w : world (F:=F)) i o : inv w -> getobj w i = Some o -> exists l c, nth_error (w_heap w) (ob_buf o) = Some (l, S c) /\ ob_nnz o <= ob_alloc o <= length l.
Proof.
  intros I H. pose proof (inv_refs _ I H) as R. destruct I as [_ I2]. specialize (I2 _ _ H). unfold fits, len in I2. unfold refs in R.
  destruct (nth_error (w_heap w) (ob_buf o)) as [[l [|c]]|] eqn:E; try lia. eauto.
Qed.
Lemma getobj_app (w : world (F:=F)) (h : heap) o vs j : getobj (mkWorld h (w_objs w ++ [Some o]) vs) j = if j =? length (w_objs w) then Some o else getobj w j.
Proof.
  unfold getobj. cbn [w_objs]. destruct (Nat.eqb_spec j (length (w_objs w))) as [->|E].
  - rewrite nth_error_app2, Nat.sub_diag by lia. reflexivity.
  - destruct (Nat.ltb_spec j (length (w_objs w))); [now rewrite nth_error_app1 by lia|].
    rewrite (proj2 (nth_error_None (_ ++ _) j)) by (rewrite app_length; cbn; lia). now rewrite (proj2 (nth_error_None (w_objs w) j)) by lia.
Qed.
Lemma getobj_set (w : world (F:=F)) (h : heap) i x j : getobj w i <> None -> getobj (setobj w h i x) j = if i =? j then x else getobj w j.
Proof.
  unfold getobj, setobj. cbn [w_objs]. intros H. rewrite nth_error_upd.
  assert (Hl : i < length (w_objs w)). { apply nth_error_Some. intros E. rewrite E in H. now apply H. }
  rewrite (proj2 (Nat.ltb_lt _ _) Hl), andb_true_r. destruct (i =? j); [now destruct x|reflexivity].
Qed.

(** replacing object i by o', over a heap with the right counts and no shorter allocations *)
Lemma inv_set (w : world (F:=F)) h i o x : inv w -> getobj w i = Some o ->
  (forall b, refs h b + has b (Some o) = refs (w_heap w) b + has b x) ->
  (forall b, b < length (w_heap w) -> len h b = len (w_heap w) b) ->
  (forall o', x = Some o' -> fits h o') -> inv (setobj w h i x).
Proof.
  intros I Ho R L X. split.
  - intros b. cbn [setobj w_heap w_objs]. pose proof (cnt_upd _ i x b (getobj_nth _ _ Ho)) as C. destruct I as [I1 _]. specialize (R b). rewrite I1 in R. lia.
  - intros j o'. rewrite getobj_set by congruence. cbn [setobj w_heap]. destruct (Nat.eqb_spec i j); [apply X|].
    intros Hj. pose proof (inv_refs _ I Hj) as Rj. apply refs_len in Rj. unfold fits. rewrite L by exact Rj. destruct I as [_ I2]. exact (I2 _ _ Hj).
Qed.
Lemma inv_heap (w : world (F:=F)) h vs : inv w -> (forall b, refs h b = refs (w_heap w) b) -> (forall b, len h b = len (w_heap w) b) -> inv (mkWorld h (w_objs w) vs).
Proof.
  intros [I1 I2] R L. split; cbn [w_heap w_objs]; [intros b; now rewrite R|]. intros i o H. specialize (I2 i o H). unfold fits in *. cbn [w_heap]. now rewrite L.
Qed.

Lemma realloc_ok (h h' : heap) o o' n x : ob_nnz o <= len h (ob_buf o) -> realloc h o n x = Some (h', o') ->
  (forall b, refs h' b + has b (Some o) = refs h b + has b (Some o')) /\ (forall b, b < length h -> len h' b = len h b) /\
  ob_class o' = ob_class o /\ ob_nnz o' = n /\ ob_alloc o' = n /\ len h' (ob_buf o') = n /\ ob_buf o' = length h /\ ob_own o' = ob_own o /\ length h' = S (length h).
Proof.
  unfold realloc. intros Hn. destruct (live h (ob_buf o)) as [l|] eqn:E; [|discriminate]. destruct (_ <=? length l) eqn:Em; [|discriminate]. intros [= <- <-]. cbn [ob_class ob_nnz ob_alloc ob_buf ob_own].
  assert (R : 0 < refs h (ob_buf o)) by (apply live_refs; congruence). pose proof (refs_len _ _ R) as Rl.
  split; [|split; [|repeat split]].
  - intros b. rewrite refs_app, length_release, refs_release. cbn [has ob_buf].
    destruct (Nat.eqb_spec (ob_buf o) b) as [<-|]; destruct (Nat.eqb_spec (length h) (ob_buf o)); try lia; destruct (length h =? b); lia.
  - intros b Hb. rewrite len_app by (now rewrite length_release). apply len_release.
  - replace (length h) with (length (release h (ob_buf o))) by apply length_release. rewrite len_new. rewrite app_length, firstn_length, repeat_length. apply Nat.leb_le in Em. lia.
  - rewrite app_length, length_release. cbn. lia.
Qed.
Lemma realloc_def (h : heap) o n x l c : nth_error h (ob_buf o) = Some (l, S c) -> ob_nnz o <= length l -> exists r, realloc h o n x = Some r.
Proof. intros E H. unfold realloc, live. rewrite E. rewrite (proj2 (Nat.leb_le _ _)) by lia. eauto. Qed.

Lemma elements_ok (h : heap) o l : elements h o = Some l -> exists l0 c, nth_error h (ob_buf o) = Some (l0, S c) /\ l = firstn (ob_nnz o) l0 /\ ob_nnz o <= length l0 /\ length l = ob_nnz o.
Proof.
  unfold elements, live. destruct (nth_error h (ob_buf o)) as [[l0 [|c]]|]; try discriminate. destruct (Nat.leb_spec (ob_nnz o) (length l0)); [|discriminate].
  intros [= <-]. exists l0, c. rewrite firstn_length. repeat split; auto; lia.
Qed.
Lemma elements_def (h : heap) o l c : nth_error h (ob_buf o) = Some (l, S c) -> ob_nnz o <= length l -> elements h o = Some (firstn (ob_nnz o) l).
Proof. intros E H. unfold elements, live. rewrite E. now rewrite (proj2 (Nat.leb_le _ _) H). Qed.
Lemma step_inv e (w w' : world (F:=F)) r : inv w -> step d e w = Some (w', r) -> inv w'.
Proof.
  intros I. destruct e as [c l|c i|i n x|i x|i k|i k x|i|i s n|v k|v k x|i0|i0 j0|v1 y1|v1 n1|i2 j2]; cbn [step].
  - intros [= <- <-]. destruct I as [I1 I2]. split.
    + intros b. cbn [w_heap w_objs]. rewrite refs_app, cnt_app, I1. reflexivity.
    + intros j o. rewrite getobj_app. cbn [w_heap]. destruct (j =? _).
      * intros [= <-]. unfold fits. cbn [ob_nnz ob_alloc ob_buf]. rewrite len_new. lia.
      * intros Hj. pose proof (I2 _ _ Hj) as Q. unfold fits in *. rewrite len_app; auto. apply refs_len. apply (@inv_refs w j o); [split; auto|exact Hj].
  - destruct (getobj w i) as [o|] eqn:Eo; [|discriminate]. intros S.
    assert (E : w' = mkWorld (acquire (w_heap w) (ob_buf o)) (w_objs w ++ [Some (mkObj c (ob_buf o) (ob_nnz o) (ob_alloc o) false)]) (w_views w)) by (destruct c, (ob_class o); congruence).
    subst w'. pose proof (refs_len _ _ (inv_refs _ I Eo)) as Hl. destruct I as [I1 I2]. split.
    + intros b. cbn [w_heap w_objs]. rewrite refs_acquire, cnt_app, I1 by exact Hl. reflexivity.
    + intros j o'. rewrite getobj_app. cbn [w_heap]. unfold fits. destruct (j =? _).
      * intros [= <-]. cbn [ob_nnz ob_alloc ob_buf]. rewrite len_acquire. exact (I2 _ _ Eo).
      * intros Hj. rewrite len_acquire. exact (I2 _ _ Hj).
  - destruct (getobj w i) as [o|] eqn:Eo; [|discriminate]. pose proof (proj2 I _ _ Eo) as Fo. unfold fits in Fo.
    destruct (match ob_class o with Tens => _ | Vec => _ end) eqn:Ec.
    + destruct (inv_live _ I Eo) as (l & c & El & Hl). rewrite El. destruct ((n <=? ob_nnz o) || (n <=? length l)) eqn:En; [|discriminate]. intros [= <- <-].
      assert (Hn : n <= ob_alloc o) by (destruct (ob_class o); [discriminate|]; apply Nat.ltb_lt in Ec; lia).
      assert (LL : length (if n <=? ob_nnz o then l else fill l (ob_nnz o) n x) = length l) by (destruct (Nat.leb_spec n (ob_nnz o)); [reflexivity|apply fill_length; lia]).
      assert (Hb : ob_buf o < length (w_heap w)) by (eapply nth_error_len; eauto).
      eapply inv_set; eauto.
      * intros b. rewrite refs_upd by exact Hb. cbn [has ob_buf]. destruct (Nat.eqb_spec (ob_buf o) b) as [<-|]; [unfold refs; rewrite El|]; lia.
      * intros b _. rewrite len_upd, LL by exact Hb. destruct (Nat.eqb_spec (ob_buf o) b) as [<-|]; [unfold len; now rewrite El|reflexivity].
      * intros o' [= <-]. unfold fits. cbn [ob_nnz ob_alloc ob_buf]. rewrite len_upd, LL, Nat.eqb_refl by exact Hb. lia.
    + destruct (ob_own o); [|intros [= <- <-]; exact I]. destruct (realloc _ _ _ _) as [[h' o']|] eqn:Er; [|discriminate]. intros [= <- <-].
      pose proof (fun H => @realloc_ok _ _ _ _ _ _ H Er) as RK; specialize (RK ltac:(lia)); destruct RK as (R1 & R2 & R3 & R4 & R5 & R6 & _). eapply inv_set; eauto. intros o2 [= <-]. unfold fits. lia.
  - destruct (getobj w i) as [o|] eqn:Eo; [|discriminate]. pose proof (proj2 I _ _ Eo) as Fo. unfold fits in Fo. destruct (ob_class o) eqn:Ec; [|discriminate].
    destruct (ob_own o); [|intros [= <- <-]; exact I]. destruct (Nat.leb_spec (ob_alloc o) (ob_nnz o)) as [Hf|Hf].
    + destruct (realloc _ _ _ _) as [[h' o']|] eqn:Er; [|discriminate]. cbn [ob_buf ob_nnz ob_class ob_alloc ob_own]. destruct (store h' _ _ _) as [h2|] eqn:Es; [|discriminate]. intros [= <- <-].
      pose proof (fun H => @realloc_ok _ _ _ _ _ _ H Er) as RK; specialize (RK ltac:(lia)); destruct RK as (R1 & R2 & R3 & R4 & R5 & R6 & _). eapply inv_set; eauto.
      * intros b. rewrite (refs_store _ _ _ _ b Es). exact (R1 b).
      * intros b Hb. rewrite (len_store _ _ _ _ b Es). now apply R2.
      * intros o2 [= <-]. unfold fits. cbn [ob_nnz ob_alloc ob_buf]. rewrite (len_store _ _ _ _ (ob_buf o') Es). lia.
    + destruct (store (w_heap w) _ _ _) as [h2|] eqn:Es; [|discriminate]. intros [= <- <-]. eapply inv_set; eauto.
      * intros b. rewrite (refs_store _ _ _ _ b Es). reflexivity.
      * intros b Hb. apply (len_store _ _ _ _ b Es).
      * intros o2 [= <-]. unfold fits. cbn [ob_nnz ob_alloc ob_buf]. rewrite (len_store _ _ _ _ (ob_buf o) Es). lia.
  - destruct (getobj w i); [|discriminate]. destruct (load _ _ _); [|discriminate]. intros [= <- <-]. exact I.
  - destruct (getobj w i); [|discriminate]. destruct (store _ _ _ _) eqn:Es; [|discriminate]. intros [= <- <-]. apply inv_heap; auto; intros b; [eapply refs_store|eapply len_store]; eauto.
  - destruct (getobj w i) as [o|] eqn:Eo; [|discriminate]. intros [= <- <-]. eapply inv_set; eauto.
    + intros b. rewrite refs_release. cbn [has]. pose proof (inv_refs _ I Eo). destruct (Nat.eqb_spec (ob_buf o) b) as [<-|]; lia.
    + intros b _. apply len_release.
    + discriminate.
  - destruct (getobj w i); [|discriminate]. intros [= <- <-]. apply inv_heap; auto.
  - destruct (nth_error (w_views w) v); [|discriminate]. destruct (getobj w (vw_target _)); [|discriminate]. destruct (load _ _ _); [|discriminate]. intros [= <- <-]. exact I.
  - destruct (nth_error (w_views w) v); [|discriminate]. destruct (getobj w (vw_target _)); [|discriminate]. destruct (store _ _ _ _) eqn:Es; [|discriminate]. intros [= <- <-]. apply inv_heap; auto; intros b; [eapply refs_store|eapply len_store]; eauto.
  - destruct (getobj w i0) as [o|] eqn:Eo; [|discriminate]. destruct (elements _ _) as [l|] eqn:El; [|discriminate]. intros [= <- <-]. destruct (elements_ok _ _ El) as (l0 & c & _ & _ & _ & Hl). destruct I as [I1 I2]. split.
    + intros b. cbn [w_heap w_objs]. rewrite refs_app, cnt_app, I1. reflexivity.
    + intros j o'. rewrite getobj_app. cbn [w_heap]. destruct (j =? _).
      * intros [= <-]. unfold fits. cbn [ob_nnz ob_alloc ob_buf]. rewrite len_new. lia.
      * intros Hj. pose proof (I2 _ _ Hj) as Q. unfold fits in *. rewrite len_app; auto. apply refs_len. apply (@inv_refs w j o'); [split; auto|exact Hj].
  - destruct (getobj w i0) as [o|] eqn:Eo; [|discriminate]. destruct (getobj w j0) as [q|]; [|discriminate]. destruct (_ && _) eqn:Ec; [|discriminate]. destruct (elements _ _) as [l|] eqn:El; [|discriminate].
    destruct (nth_error _ _) as [[l0 [|c]]|] eqn:E0; try discriminate. destruct (Nat.leb_spec (ob_nnz o) (length l0)); [|discriminate]. intros [= <- <-].
    destruct (elements_ok _ _ El) as (_ & _ & _ & _ & _ & Hl). apply andb_prop in Ec as [_ Ec]. apply Nat.eqb_eq in Ec. pose proof (proj2 I _ _ Eo) as Fo. unfold fits in Fo.
    assert (Hb : ob_buf o < length (w_heap w)) by (eapply nth_error_len; eauto).
    assert (LL : length (l ++ skipn (ob_nnz o) l0) = length l0) by (rewrite app_length, skipn_length; lia).
    eapply inv_set; eauto.
    + intros b. rewrite refs_upd by exact Hb. cbn [has ob_buf]. destruct (Nat.eqb_spec (ob_buf o) b) as [<-|]; [unfold refs; rewrite E0|]; lia.
    + intros b _. rewrite len_upd, LL by exact Hb. destruct (Nat.eqb_spec (ob_buf o) b) as [<-|]; [unfold len; now rewrite E0|reflexivity].
    + intros o' [= <-]. unfold fits. cbn [ob_nnz ob_alloc ob_buf]. rewrite len_upd, LL, Nat.eqb_refl by exact Hb. unfold len in Fo. rewrite E0 in Fo. lia.
  - destruct (nth_error (w_views w) v1) as [u|]; [|discriminate]. destruct (getobj w (vw_target u)); [|discriminate]. destruct (_ =? 0); [intros [= <- <-]; exact I|].
    destruct (nth_error (w_heap w) _) as [[l [|c]]|] eqn:El; try discriminate. destruct (Nat.leb_spec (vw_first u + vw_range u) (length l)); [|discriminate]. intros [= <- <-].
    pose proof (nth_error_len _ _ El) as Hb. apply inv_heap; auto; intros b; rewrite ?refs_upd, ?len_upd by exact Hb; (destruct (Nat.eqb_spec (vw_buf u) b) as [<-|]; [|reflexivity]); [unfold refs|unfold len]; rewrite El; [reflexivity|apply fill_length; lia].
  - destruct (nth_error (w_views w) v1) as [u|]; [|discriminate]. destruct (getobj w (vw_target u)); [|discriminate]. destruct (_ <=? _); [|discriminate]. intros [= <- <-]. apply inv_heap; auto.
  - destruct (getobj w i2) as [o|] eqn:Eo; [|discriminate]. destruct (getobj w j2) as [q|] eqn:Eq; [|discriminate]. destruct (_ || _); [discriminate|]. intros [= <- <-].
    pose proof (inv_refs _ I Eo) as Ro. pose proof (refs_len _ _ (inv_refs _ I Eq)) as Lq. eapply inv_set; eauto.
    + intros b. rewrite refs_release, refs_acquire by exact Lq. cbn [has ob_buf]. destruct (Nat.eqb_spec (ob_buf o) b) as [<-|]; lia.
    + intros b _. rewrite len_release. apply len_acquire.
    + intros o' [= <-]. unfold fits. cbn [ob_nnz ob_alloc ob_buf]. rewrite len_release, len_acquire. exact (proj2 I _ _ Eq).
Qed.
Lemma exec_inv : forall h (w w' : world (F:=F)) rs, inv w -> exec d h w = Some (w', rs) -> inv w'.
Proof.
  induction h as [|e h IH]; intros w w' rs I E; cbn [exec] in E; [injection E as <- <-; exact I|].
  destruct (step d e w) as [[w1 r]|] eqn:S; [|discriminate]. destruct (exec d h w1) as [[w2 rs2]|] eqn:E2; [|discriminate]. injection E as <- <-.
  eapply IH; [|exact E2]. eapply step_inv; eauto.
Qed.
Lemma reached_inv (w : world (F:=F)) : reached d w -> inv w.
Proof.
  intros (h & rs & E). eapply exec_inv; [|exact E]. split; [intros [|b]; reflexivity|]. intros [|i] o; discriminate.
Qed.

(** ** storage that stays in place *)
Definition at_buf (w : world (F:=F)) (i b m : nat) : Prop := exists o, getobj w i = Some o /\ ob_buf o = b.
Lemma step_at e (w w' : world (F:=F)) r i o b : inv w -> getobj w i = Some o -> ob_buf o = b -> in_place i e w -> step d e w = Some (w', r) ->
  exists o', getobj w' i = Some o' /\ ob_buf o' = b.
Proof.
  intros I Hi Hb P. assert (Hlen : i < length (w_objs w)) by (eapply nth_error_len, getobj_nth; eauto).
  assert (Hne : (i =? length (w_objs w)) = false) by (apply Nat.eqb_neq; lia).
  destruct e as [c l|c j|j n x|j x|j k|j k x|j|j s n|v k|v k x|i0|i0 j0|v1 y1|v1 n1|i2 j2]; cbn [step in_place] in *.
  - intros [= <- <-]. exists o. now rewrite getobj_app, Hne.
  - destruct (getobj w j) as [q|]; [|discriminate]. destruct c, (ob_class q); try discriminate; intros [= <- <-]; exists o; now rewrite getobj_app, Hne.
  - destruct (getobj w j) as [q|] eqn:Ej; [|discriminate]. destruct (Nat.eq_dec j i) as [->|Hji].
    + assert (q = o) by congruence. subst q. destruct (P eq_refl _ Hi) as [Pc Pn]. rewrite Pc, (proj2 (Nat.ltb_lt _ _) Pn).
      destruct (nth_error _ _) as [[l [|c]]|]; try discriminate. destruct (_ || _); [|discriminate]. intros [= <- <-]. eexists. rewrite getobj_set, Nat.eqb_refl by congruence. split; [reflexivity|exact Hb].
    + assert (X : forall h y, exists o', getobj (setobj w h j y) i = Some o' /\ ob_buf o' = b).
      { intros h y. exists o. rewrite getobj_set by congruence. destruct (Nat.eqb_spec j i); [contradiction|auto]. }
      destruct (match ob_class q with Tens => _ | Vec => _ end).
      * destruct (nth_error _ _) as [[l [|c]]|]; try discriminate. destruct (_ || _); [|discriminate]. intros [= <- <-]. apply X.
      * destruct (ob_own q); [|intros [= <- <-]; eauto]. destruct (realloc _ _ _ _) as [[h' o']|]; [|discriminate]. intros [= <- <-]. apply X.
  - destruct (getobj w j) as [q|] eqn:Ej; [|discriminate]. destruct (ob_class q) eqn:Ecl; [|discriminate]. destruct (ob_own q); [|intros [= <- <-]; eauto]. destruct (Nat.eq_dec j i) as [->|Hji].
    + assert (q = o) by congruence. subst q. specialize (P eq_refl _ Hi). rewrite (proj2 (Nat.leb_gt _ _) P).
      destruct (store _ _ _ _); [|discriminate]. intros [= <- <-]. eexists. rewrite getobj_set, Nat.eqb_refl by congruence. split; [reflexivity|exact Hb].
    + match goal with |- match ?m with _ => _ end = _ -> _ => destruct m as [[h' o']|]; [|discriminate] end. destruct (store _ _ _ _); [|discriminate]. intros [= <- <-].
      exists o. rewrite getobj_set by congruence. destruct (Nat.eqb_spec j i); [contradiction|auto].
  - destruct (getobj w j); [|discriminate]. destruct (load _ _ _); [|discriminate]. intros [= <- <-]. eauto.
  - destruct (getobj w j); [|discriminate]. destruct (store _ _ _ _); [|discriminate]. intros [= <- <-]. exists o. auto.
  - destruct (getobj w j) eqn:Ej; [|discriminate]. intros [= <- <-]. exists o. rewrite getobj_set by congruence. destruct (Nat.eqb_spec j i); [contradiction|auto].
  - destruct (getobj w j); [|discriminate]. intros [= <- <-]. exists o. auto.
  - destruct (nth_error (w_views w) v); [|discriminate]. destruct (getobj w (vw_target _)); [|discriminate]. destruct (load _ _ _); [|discriminate]. intros [= <- <-]. eauto.
  - destruct (nth_error (w_views w) v); [|discriminate]. destruct (getobj w (vw_target _)); [|discriminate]. destruct (store _ _ _ _); [|discriminate]. intros [= <- <-]. exists o. auto.
  - destruct (getobj w i0); [|discriminate]. destruct (elements _ _); [|discriminate]. intros [= <- <-]. exists o. now rewrite getobj_app, Hne.
  - destruct (getobj w i0) as [q0|] eqn:E0; [|discriminate]. destruct (getobj w j0); [|discriminate]. destruct (_ && _); [|discriminate]. destruct (elements _ _); [|discriminate].
    destruct (nth_error _ _) as [[l0 [|c]]|]; try discriminate. destruct (_ <=? _); [|discriminate]. intros [= <- <-]. rewrite getobj_set by congruence. destruct (Nat.eqb_spec i0 i) as [->|]; [|eauto].
    eexists. split; [reflexivity|]. cbn [ob_buf]. congruence.
  - destruct (nth_error (w_views w) v1) as [u|]; [|discriminate]. destruct (getobj w (vw_target u)); [|discriminate]. destruct (_ =? 0); [intros [= <- <-]; eauto|].
    destruct (nth_error (w_heap w) _) as [[l [|c]]|]; try discriminate. destruct (_ <=? _); [|discriminate]. intros [= <- <-]. exists o. auto.
  - destruct (nth_error (w_views w) v1) as [u|]; [|discriminate]. destruct (getobj w (vw_target u)); [|discriminate]. destruct (_ <=? _); [|discriminate]. intros [= <- <-]. exists o. auto.
  - destruct (getobj w i2) as [q|] eqn:Eo; [|discriminate]. destruct (getobj w j2); [|discriminate]. destruct (_ || _); [discriminate|]. intros [= <- <-].
    exists o. rewrite getobj_set by congruence. destruct (Nat.eqb_spec i2 i); [contradiction|auto].
Qed.
Lemma exec_at : forall h (w w' : world (F:=F)) rs i o b, inv w -> getobj w i = Some o -> ob_buf o = b -> all_in_place d i h w -> exec d h w = Some (w', rs) ->
  exists o', getobj w' i = Some o' /\ ob_buf o' = b.
Proof.
  induction h as [|e h IH]; intros w w' rs i o b I Hi Hb P E; cbn [exec] in E; [injection E as <- <-; eauto|].
  destruct (step d e w) as [[w1 r]|] eqn:S; [|discriminate]. destruct (exec d h w1) as [[w2 rs2]|] eqn:E2; [|discriminate]. injection E as <- <-.
  destruct P as [P1 P2]. destruct (@step_at e w w1 r i o b I Hi Hb P1 S) as (o1 & H1 & H2). eapply IH; [|exact H1|exact H2|exact (P2 _ _ S)|exact E2]. eapply step_inv; eauto.
Qed.
(** lengths of allocations never change, and views keep what they hold *)
Lemma step_len e (w w' : world (F:=F)) r b : inv w -> b < length (w_heap w) -> step d e w = Some (w', r) -> b < length (w_heap w') /\ len (w_heap w') b = len (w_heap w) b.
Proof.
  intros I Hb. destruct e as [c l|c j|j n x|j x|j k|j k x|j|j s n|v k|v k x|i0|i0 j0|v1 y1|v1 n1|i2 j2]; cbn [step].
  - intros [= <- <-]. cbn [w_heap]. rewrite app_length, len_app by exact Hb. cbn. lia.
  - destruct (getobj w j) as [q|]; [|discriminate]. destruct c, (ob_class q); try discriminate; intros [= <- <-]; cbn [w_heap]; rewrite length_acquire, len_acquire; auto.
  - destruct (getobj w j) as [q|] eqn:Ej; [|discriminate]. pose proof (proj2 I _ _ Ej) as Fo. unfold fits in Fo. destruct (match ob_class q with Tens => _ | Vec => _ end) eqn:Ec.
    + destruct (inv_live _ I Ej) as (l & c & El & Hl). rewrite El. destruct ((n <=? ob_nnz q) || (n <=? length l)) eqn:En; [|discriminate]. intros [= <- <-]. cbn [setobj w_heap]. rewrite upd_length. split; [exact Hb|].
      rewrite len_upd by (eapply nth_error_len; eauto). destruct (Nat.eqb_spec (ob_buf q) b) as [<-|]; [|reflexivity]. unfold len. rewrite El. destruct (Nat.leb_spec n (ob_nnz q)); [reflexivity|].
      apply fill_length; [lia|]. destruct (ob_class q); [discriminate|]. apply Nat.ltb_lt in Ec. lia.
    + destruct (ob_own q); [|intros [= <- <-]; auto]. destruct (realloc _ _ _ _) as [[h' o']|] eqn:Er; [|discriminate]. intros [= <- <-]. cbn [setobj w_heap].
      pose proof (fun H => @realloc_ok _ _ _ _ _ _ H Er) as RK; specialize (RK ltac:(lia)); destruct RK as (_ & R2 & _ & _ & _ & _ & _ & _ & R9). split; [lia|now apply R2].
  - destruct (getobj w j) as [q|] eqn:Ej; [|discriminate]. pose proof (proj2 I _ _ Ej) as Fo. unfold fits in Fo. destruct (ob_class q) eqn:Ec; [|discriminate]. destruct (ob_own q); [|intros [= <- <-]; auto].
    destruct (ob_alloc q <=? ob_nnz q).
    + destruct (realloc _ _ _ _) as [[h' o']|] eqn:Er; [|discriminate]. destruct (store h' _ _ _) as [h2|] eqn:Es; [|discriminate]. intros [= <- <-]. cbn [setobj w_heap].
      pose proof (fun H => @realloc_ok _ _ _ _ _ _ H Er) as RK; specialize (RK ltac:(lia)); destruct RK as (_ & R2 & _ & _ & _ & _ & _ & _ & R9). rewrite (length_store _ _ _ _ Es), (len_store _ _ _ _ b Es). split; [lia|now apply R2].
    + destruct (store _ _ _ _) as [h2|] eqn:Es; [|discriminate]. intros [= <- <-]. cbn [setobj w_heap]. rewrite (length_store _ _ _ _ Es), (len_store _ _ _ _ b Es). auto.
  - destruct (getobj w j); [|discriminate]. destruct (load _ _ _); [|discriminate]. intros [= <- <-]. auto.
  - destruct (getobj w j); [|discriminate]. destruct (store _ _ _ _) eqn:Es; [|discriminate]. intros [= <- <-]. cbn [w_heap]. rewrite (length_store _ _ _ _ Es), (len_store _ _ _ _ b Es). auto.
  - destruct (getobj w j); [|discriminate]. intros [= <- <-]. cbn [setobj w_heap]. rewrite length_release, len_release. auto.
  - destruct (getobj w j); [|discriminate]. intros [= <- <-]. auto.
  - destruct (nth_error (w_views w) v); [|discriminate]. destruct (getobj w (vw_target _)); [|discriminate]. destruct (load _ _ _); [|discriminate]. intros [= <- <-]. auto.
  - destruct (nth_error (w_views w) v); [|discriminate]. destruct (getobj w (vw_target _)); [|discriminate]. destruct (store _ _ _ _) eqn:Es; [|discriminate]. intros [= <- <-]. cbn [w_heap]. rewrite (length_store _ _ _ _ Es), (len_store _ _ _ _ b Es). auto.
  - destruct (getobj w i0); [|discriminate]. destruct (elements _ _); [|discriminate]. intros [= <- <-]. cbn [w_heap]. rewrite app_length, len_app by exact Hb. cbn. lia.
  - destruct (getobj w i0) as [o|] eqn:Eo; [|discriminate]. destruct (getobj w j0) as [q|]; [|discriminate]. destruct (_ && _) eqn:Ec; [|discriminate]. destruct (elements _ _) as [l|] eqn:El; [|discriminate].
    destruct (nth_error _ _) as [[l0 [|c]]|] eqn:E0; try discriminate. destruct (Nat.leb_spec (ob_nnz o) (length l0)); [|discriminate]. intros [= <- <-].
    destruct (elements_ok _ _ El) as (_ & _ & _ & _ & _ & Hl). apply andb_prop in Ec as [_ Ec]. apply Nat.eqb_eq in Ec. cbn [setobj w_heap]. rewrite upd_length. split; [exact Hb|].
    rewrite len_upd by (eapply nth_error_len; eauto). destruct (Nat.eqb_spec (ob_buf o) b) as [<-|]; [|reflexivity]. unfold len. rewrite E0, app_length, skipn_length. lia.
  - destruct (nth_error (w_views w) v1) as [u|]; [|discriminate]. destruct (getobj w (vw_target u)); [|discriminate]. destruct (_ =? 0); [intros [= <- <-]; auto|].
    destruct (nth_error (w_heap w) _) as [[l [|c]]|] eqn:El; try discriminate. destruct (Nat.leb_spec (vw_first u + vw_range u) (length l)); [|discriminate]. intros [= <- <-]. cbn [w_heap]. rewrite upd_length. split; [exact Hb|].
    rewrite len_upd by (eapply nth_error_len; eauto). destruct (Nat.eqb_spec (vw_buf u) b) as [<-|]; [|reflexivity]. unfold len. rewrite El. apply fill_length; lia.
  - destruct (nth_error (w_views w) v1) as [u|]; [|discriminate]. destruct (getobj w (vw_target u)); [|discriminate]. destruct (_ <=? _); [|discriminate]. intros [= <- <-]. auto.
  - destruct (getobj w i2) as [q|]; [|discriminate]. destruct (getobj w j2); [|discriminate]. destruct (_ || _); [discriminate|]. intros [= <- <-]. cbn [setobj w_heap].
    rewrite length_release, length_acquire, len_release, len_acquire. auto.
Qed.
(** where a view starts never changes *)
Definition same_place (u u' : view) : Prop := vw_target u' = vw_target u /\ vw_buf u' = vw_buf u /\ vw_first u' = vw_first u.
Lemma step_views e (w w' : world (F:=F)) r v u : nth_error (w_views w) v = Some u -> step d e w = Some (w', r) -> exists u', nth_error (w_views w') v = Some u' /\ same_place u u'.
Proof.
  intros H. destruct e as [c l|c j|j n x|j x|j k|j k x|j|j s n|v0 k|v0 k x|i0|i0 j0|v1 y1|v1 n1|i2 j2]; cbn [step].
  8:{ destruct (getobj w j); [|discriminate]. intros [= <- <-]. cbn [w_views]. rewrite nth_error_app1 by (eapply nth_error_len; eauto). exists u. split; [exact H|repeat split]. }
  13:{ destruct (nth_error (w_views w) v1) as [u1|] eqn:E1; [|discriminate]. destruct (getobj w (vw_target u1)); [|discriminate]. destruct (_ <=? _); [|discriminate]. intros [= <- <-]. cbn [w_views].
    rewrite nth_error_upd, (proj2 (Nat.ltb_lt _ _) (nth_error_len _ _ E1)), andb_true_r. destruct (Nat.eqb_spec v1 v) as [->|]; [|exists u; split; [exact H|repeat split]].
    assert (u1 = u) by congruence. subst. eexists. split; [reflexivity|repeat split]. }
  all: intros S; repeat match type of S with match ?m with _ => _ end = _ => destruct m; try discriminate end; injection S as <- <-; exists u; (split; [exact H|repeat split]).
Qed.
Lemma exec_views : forall h (w w' : world (F:=F)) rs v u b, inv w -> b < length (w_heap w) -> nth_error (w_views w) v = Some u -> exec d h w = Some (w', rs) ->
  (exists u', nth_error (w_views w') v = Some u' /\ same_place u u') /\ len (w_heap w') b = len (w_heap w) b.
Proof.
  induction h as [|e h IH]; intros w w' rs v u b I Hb H E; cbn [exec] in E; [injection E as <- <-; split; [exists u; split; [exact H|repeat split]|reflexivity]|].
  destruct (step d e w) as [[w1 r]|] eqn:S; [|discriminate]. destruct (exec d h w1) as [[w2 rs2]|] eqn:E2; [|discriminate]. injection E as <- <-.
  destruct (@step_len e w w1 r b I Hb S) as [L1 L2]. rewrite <- L2. destruct (@step_views e w w1 r v u H S) as (u1 & U1 & (A1 & A2 & A3)).
  destruct (IH w1 w2 rs2 v u1 b) as [(u2 & U2 & (B1 & B2 & B3)) L3]; eauto; [eapply step_inv; eauto|]. split; [|exact L3]. exists u2. split; [exact U2|]. unfold same_place. intuition congruence.
Qed.
Lemma load_ok (h : heap) b k : 0 < refs h b -> k < len h b -> exists x, load h b k = Some x.
Proof.
  unfold load, live, refs, len. destruct (nth_error h b) as [[l [|c]]|]; try lia. intros _ Hk. destruct (nth_error l k) eqn:E; [eauto|]. apply nth_error_None in E. lia.
Qed.
Lemma store_ok (h : heap) b k x : 0 < refs h b -> k < len h b -> exists h', store h b k x = Some h'.
Proof.
  unfold store, refs, len. destruct (nth_error h b) as [[l [|c]]|]; try lia. intros _ Hk. rewrite (proj2 (Nat.ltb_lt _ _) Hk). eauto.
Qed.

(** ** what is read *)
Lemma nth_error_firstn_lt {A} (l : list A) m k : k < m -> nth_error (firstn m l) k = nth_error l k.
Proof. revert k l. induction m as [|m IH]; intros [|k] [|y l] Q; cbn; try lia; try reflexivity. apply IH. lia. Qed.
Lemma nth_error_skipn_add {A} (l : list A) m k : nth_error (skipn m l) k = nth_error l (m + k).
Proof. revert l. induction m as [|m IH]; intros [|y l]; cbn; try reflexivity; [now destruct k|apply IH]. Qed.
Lemma load_store (h h' : heap) b k x b' k' : store h b k x = Some h' -> load h' b' k' = if (b =? b') && (k =? k') then Some x else load h b' k'.
Proof.
  unfold store, load, live. destruct (nth_error h b) as [[l [|c]]|] eqn:E; try discriminate. destruct (Nat.ltb_spec k (length l)) as [Hk|]; [|discriminate]. intros [= <-].
  rewrite nth_error_upd, (proj2 (Nat.ltb_lt _ _) (nth_error_len _ _ E)), andb_true_r. destruct (Nat.eqb_spec b b') as [<-|]; cbn [andb]; [|reflexivity].
  rewrite E, nth_error_upd, (proj2 (Nat.ltb_lt _ _) Hk), andb_true_r. reflexivity.
Qed.
Lemma load_app (h : heap) p b k : b < length h -> load (h ++ [p]) b k = load h b k.
Proof. intros H. unfold load, live. now rewrite nth_error_app1. Qed.
Lemma load_new (h : heap) l k : load (h ++ [(l, 1)]) (length h) k = nth_error l k.
Proof. unfold load, live. rewrite nth_error_app2, Nat.sub_diag by lia. reflexivity. Qed.
(** dropping one reference of several, or a reference to another allocation *)
Lemma load_release (h : heap) b b' k : (b = b' -> 2 <= refs h b) -> load (release h b) b' k = load h b' k.
Proof.
  unfold load, live, release, refs. destruct (nth_error h b) as [[l c]|] eqn:E; [|reflexivity]. intros H.
  rewrite nth_error_upd, (proj2 (Nat.ltb_lt _ _) (nth_error_len _ _ E)), andb_true_r. destruct (Nat.eqb_spec b b') as [<-|]; [|reflexivity].
  specialize (H eq_refl). rewrite E. destruct c as [|[|c]]; try lia. reflexivity.
Qed.
Lemma load_acquire (h : heap) b b' k : 0 < refs h b -> load (acquire h b) b' k = load h b' k.
Proof.
  unfold load, live, acquire, refs. destruct (nth_error h b) as [[l c]|] eqn:E; [|reflexivity]. intros H.
  rewrite nth_error_upd, (proj2 (Nat.ltb_lt _ _) (nth_error_len _ _ E)), andb_true_r. destruct (Nat.eqb_spec b b') as [<-|]; [|reflexivity].
  rewrite E. destruct c; [lia|reflexivity].
Qed.
Lemma two_refs (w : world (F:=F)) i j o q : inv w -> i <> j -> getobj w i = Some q -> getobj w j = Some o -> ob_buf q = ob_buf o -> 2 <= refs (w_heap w) (ob_buf q).
Proof.
  intros I Hij Hi Hj e. destruct I as [I1 _]. rewrite I1. pose proof (cnt_upd (w_objs w) i None (ob_buf q) (getobj_nth _ _ Hi)) as C1. cbn [has] in C1. rewrite Nat.eqb_refl in C1.
  assert (C2 : 0 < cnt (upd (w_objs w) i None) (ob_buf q)). { apply (@cnt_ge _ _ j o); [|now rewrite e]. rewrite nth_error_upd. destruct (Nat.eqb_spec i j); [contradiction|]. cbn [andb]. now apply getobj_nth. }
  lia.
Qed.
(** the new allocation holds the old elements and then x *)
Lemma load_realloc (h h' : heap) o o' n x k : ob_nnz o <= len h (ob_buf o) -> realloc h o n x = Some (h', o') -> k < n ->
  load h' (ob_buf o') k = if k <? ob_nnz o then load h (ob_buf o) k else Some x.
Proof.
  unfold realloc. intros Hn. destruct (live h (ob_buf o)) as [l|] eqn:E; [|discriminate]. destruct (_ <=? length l) eqn:Em; [|discriminate]. apply Nat.leb_le in Em. intros [= <- <-] Hk. cbn [ob_buf].
  assert (Hl : len h (ob_buf o) = length l). { unfold len. unfold live in E. destruct (nth_error h (ob_buf o)) as [[l0 [|c]]|]; try discriminate. congruence. }
  rewrite <- (length_release h (ob_buf o)), load_new. unfold load. rewrite E.
  destruct (Nat.ltb_spec k (ob_nnz o)) as [H|H].
  - rewrite nth_error_app1 by (rewrite firstn_length; lia). clear -H Hk. assert (Q : k < Nat.min (ob_nnz o) n) by lia. revert Q. generalize (Nat.min (ob_nnz o) n). clear. intros m. revert k l.
    induction m as [|m IH]; intros [|k] [|y l] Q; cbn; try lia; try reflexivity. apply IH. lia.
  - rewrite nth_error_app2 by (rewrite firstn_length; lia). rewrite firstn_length, Nat.min_l by lia. rewrite Nat.min_l by lia. apply nth_error_repeat. lia.
Qed.
Lemma realloc_others (h h' : heap) o o' n x b k : ob_nnz o <= len h (ob_buf o) -> realloc h o n x = Some (h', o') -> b < length h -> (ob_buf o = b -> 2 <= refs h b) -> load h' b k = load h b k.
Proof.
  unfold realloc. intros Hn. destruct (live h (ob_buf o)) as [l|] eqn:E; [|discriminate]. destruct (_ <=? length l); [|discriminate]. intros [= <- <-] Hb H2.
  rewrite load_app by now rewrite length_release. apply load_release. intros e. rewrite e in *. now apply H2.
Qed.
Lemma load_fill (l : list F) a b x k : a <= b -> b <= length l -> k < b -> nth_error (fill l a b x) k = if k <? a then nth_error l k else Some x.
Proof.
  intros H1 H2 Hk. unfold fill. destruct (Nat.ltb_spec k a) as [H|H].
  - rewrite nth_error_app1 by (rewrite firstn_length; lia). clear -H. revert k l H. induction a as [|a IH]; intros [|k] [|y l] Q; cbn; try lia; try reflexivity. apply IH. lia.
  - rewrite nth_error_app2 by (rewrite firstn_length; lia). rewrite firstn_length, Nat.min_l by lia. rewrite nth_error_app1 by (rewrite repeat_length; lia). apply nth_error_repeat. lia.
Qed.
Lemma says_get (w : world (F:=F)) i o k : getobj w i = Some o -> says d w (Get i k) = option_map Value (load (w_heap w) (ob_buf o) k).
Proof. intros H. unfold says. cbn [step]. rewrite H. destruct (load _ _ _); reflexivity. Qed.
End LifeProof.
