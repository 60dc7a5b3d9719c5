(** * GSort: the library's hand written quicksort, on one array of abstract items.

    Proof device (not a model of separate code): CooSortProof.v and TensorProof.v show that
    the modelled [_q_sort] functions, which permute several arrays in step, simulate
    this one on the array of tuples. *)
From Verif Require Import Base DenseModel.
Set Implicit Arguments.

Section GSort.
Variable A : Type.
Variable d : A.
Variable cmp : A -> A -> Z.
Variable le : A -> A -> Prop.
Hypothesis cmp_le : forall a b, (cmp a b <= 0)%Z <-> le a b.
Hypothesis cmp_ge : forall a b, (cmp a b >= 0)%Z <-> le b a.
Hypothesis le_trans : forall a b c, le a b -> le b c -> le a c.

Lemma le_refl a : le a a.
Proof.
  destruct (Z_le_gt_dec (cmp a a) 0) as [H|H].
  - now apply cmp_le.
  - apply cmp_ge. lia.
Qed.

Definition gcmp (s : list A) (a p : nat) : res Z :=
  x <- rd s a ;; y <- rd s p ;; Ok (cmp x y).

Fixpoint gscan_l (fuel : nat) (s : list A) (p h l : nat) : res nat :=
  if l <? h then
    d <- gcmp s l p ;;
    if (d <=? 0)%Z then
      match fuel with 0 => NoFuel | S fuel' => gscan_l fuel' s p h (l + 1) end
    else Ok l
  else Ok l.

Fixpoint gscan_h (fuel : nat) (s : list A) (p l h : nat) : res nat :=
  if l <? h then
    d <- gcmp s h p ;;
    if (d >=? 0)%Z then
      match fuel with 0 => NoFuel | S fuel' => gscan_h fuel' s p l (h - 1) end
    else Ok h
  else Ok h.

Fixpoint gpart (fuel : nat) (s : list A) (p l h : nat) : res (list A * nat) :=
  match fuel with
  | 0 => NoFuel
  | S fuel' =>
      l <- gscan_l (h - l) s p h l ;;
      h <- gscan_h (h - l) s p l h ;;
      if l <? h then
        s <- swap_at s l h ;;
        gpart fuel' s p l h
      else Ok (s, l)
  end.

Fixpoint gqsort (fuel : nat) (s : list A) (lo hi1 : nat) : res (list A) :=
  if hi1 <=? lo + 1 then Ok s
  else
    match fuel with
    | 0 => NoFuel
    | S fuel' =>
        let hi := hi1 - 1 in
        let p := hi in
        pv <- rd s p ;;
        '(s, l) <- gpart (S (hi - lo)) s p lo hi ;;
        x <- rd s l ;; s <- wr s p x ;; s <- wr s l pv ;;
        if l - lo <? hi - l then
          s <- gqsort fuel' s lo l ;;
          gqsort fuel' s (l + 1) hi1
        else
          s <- gqsort fuel' s (l + 1) hi1 ;;
          gqsort fuel' s lo l
    end.

Lemma gcmp_ok s a p : a < length s -> p < length s -> gcmp s a p = Ok (cmp (nth a s d) (nth p s d)).
Proof. intros H1 H2. unfold gcmp. rewrite (@rd_lt _ s a d), (@rd_lt _ s p d) by auto. reflexivity. Qed.

Lemma gscan_l_ok fuel s p h l :
  h <= p -> p < length s -> l <= h -> h - l <= fuel ->
  exists l', gscan_l fuel s p h l = Ok l' /\ l <= l' <= h /\
    (forall i, l <= i < l' -> le (nth i s d) (nth p s d)) /\
    (l' < h -> ~ le (nth l' s d) (nth p s d)).
Proof.
  revert l; induction fuel as [|fuel IH]; intros l Hp Hl Hlh Hf; cbn [gscan_l];
    destruct (Nat.ltb_spec l h) as [Hlt|Hge].
  - lia.
  - exists l. split; auto. repeat split; auto; intros; lia.
  - rewrite gcmp_ok by lia. cbn [bind].
    destruct (Z.leb_spec (cmp (nth l s d) (nth p s d)) 0) as [Hc|Hc].
    + destruct (IH (l + 1)) as (l' & E & Hb & H1 & H2); try lia.
      exists l'. split; auto. split; [lia|]. split; auto.
      intros i Hi. destruct (Nat.eq_dec i l) as [->|]; [now apply cmp_le | apply H1; lia].
    + exists l. split; auto. split; [lia|]. split; [intros; lia|].
      intros _ HC. apply cmp_le in HC. lia.
  - exists l. split; auto. repeat split; auto; intros; lia.
Qed.

Lemma gscan_h_ok fuel s p h l :
  h <= p -> p < length s -> l <= h -> h - l <= fuel ->
  exists h', gscan_h fuel s p l h = Ok h' /\ l <= h' <= h /\
    (forall i, h' < i <= h -> le (nth p s d) (nth i s d)) /\
    (l < h' -> ~ le (nth p s d) (nth h' s d)).
Proof.
  revert h; induction fuel as [|fuel IH]; intros h Hp Hl Hlh Hf; cbn [gscan_h];
    destruct (Nat.ltb_spec l h) as [Hlt|Hge].
  - lia.
  - exists h. split; auto. repeat split; auto; intros; lia.
  - rewrite gcmp_ok by lia. cbn [bind].
    rewrite Z.geb_leb.
    destruct (Z.leb_spec 0 (cmp (nth h s d) (nth p s d))) as [Hc|Hc].
    + destruct (IH (h - 1)) as (h' & E & Hb & H1 & H2); try lia.
      exists h'. split; auto. split; [lia|]. split; auto.
      intros i Hi. destruct (Nat.eq_dec i h) as [->|]; [apply cmp_ge; lia | apply H1; lia].
    + exists h. split; auto. split; [lia|]. split; [intros; lia|].
      intros _ HC. apply cmp_ge in HC. lia.
  - exists h. split; auto. repeat split; auto; intros; lia.
Qed.

(** exchanging two elements *)
Definition swapped (s s' : list A) (a b : nat) : Prop :=
  length s' = length s /\ nth a s' d = nth b s d /\ nth b s' d = nth a s d /\
  forall i, i <> a -> i <> b -> nth i s' d = nth i s d.

Lemma swapped_perm s s' a b :
  a < length s -> b < length s -> swapped s s' a b -> Permutation s s'.
Proof.
  intros Ha Hb (HL & H1 & H2 & H3).
  apply (Permutation_nth s s' d). split; auto.
  exists (fun i => if i =? a then b else if i =? b then a else i).
  split; [|split].
  - intros i Hi. destruct (Nat.eqb_spec i a); destruct (Nat.eqb_spec i b); lia.
  - intros x y Hx Hy.
    destruct (Nat.eqb_spec x a); destruct (Nat.eqb_spec y a);
    destruct (Nat.eqb_spec x b); destruct (Nat.eqb_spec y b); lia.
  - intros i Hi.
    destruct (Nat.eqb_spec i a) as [->|]; auto.
    destruct (Nat.eqb_spec i b) as [->|]; auto.
Qed.

Lemma swap_at_ok s a b :
  a < length s -> b < length s -> a <> b ->
  exists s', swap_at s a b = Ok s' /\ swapped s s' a b.
Proof.
  intros Ha Hb Hab. unfold swap_at.
  rewrite (@rd_lt _ s a d), (@rd_lt _ s b d) by auto. cbn [bind].
  rewrite wr_lt by auto. cbn [bind]. rewrite wr_lt by (rewrite upd_length; auto).
  eexists; split; [reflexivity|]. repeat split.
  - now rewrite !upd_length.
  - rewrite nth_upd_other, nth_upd_same by auto. reflexivity.
  - rewrite nth_upd_same by (rewrite upd_length; auto). reflexivity.
  - intros i H1 H2. rewrite !nth_upd_other by auto. reflexivity.
Qed.

(** what partition/sort of the segment [lo,hi1) guarantees about [s'] wrt [s] *)
Definition seg (lo hi1 : nat) (s s' : list A) : Prop :=
  Permutation s s' /\
  (forall i, ~ (lo <= i < hi1) -> nth i s' d = nth i s d) /\
  (forall i, lo <= i < hi1 -> exists j, lo <= j < hi1 /\ nth i s' d = nth j s d).

Lemma seg_len lo hi1 s s' : seg lo hi1 s s' -> length s' = length s.
Proof. intros [H _]. symmetry. now apply Permutation_length. Qed.

Lemma seg_refl lo hi1 s : seg lo hi1 s s.
Proof. repeat split; auto. intros i Hi. exists i. auto. Qed.

Lemma seg_trans lo hi1 s1 s2 s3 : seg lo hi1 s1 s2 -> seg lo hi1 s2 s3 -> seg lo hi1 s1 s3.
Proof.
  intros (P1 & O1 & I1) (P2 & O2 & I2). repeat split.
  - eapply Permutation_trans; eauto.
  - intros i Hi. rewrite O2, O1; auto.
  - intros i Hi. destruct (I2 i Hi) as (j & Hj & ->). destruct (I1 j Hj) as (k & Hk & ->). eauto.
Qed.

Lemma seg_weaken lo hi1 lo' hi1' s s' :
  lo' <= lo -> hi1 <= hi1' -> seg lo hi1 s s' -> seg lo' hi1' s s'.
Proof.
  intros H1 H2 (P & O & I). repeat split; auto.
  - intros i Hi. apply O. lia.
  - intros i Hi. destruct (le_lt_dec lo i); destruct (le_lt_dec hi1 i).
    1,3,4: exists i; split; [lia|]; apply O; lia.
    destruct (I i) as (j & Hj & ->); [lia|]. exists j. split; auto; lia.
Qed.

Lemma swapped_seg s s' a b lo hi1 :
  lo <= a < hi1 -> lo <= b < hi1 -> hi1 <= length s -> swapped s s' a b -> seg lo hi1 s s'.
Proof.
  intros Ha Hb HL SW. split; [|split].
  - eapply swapped_perm; [| |exact SW]; lia.
  - intros i Hi. apply SW; lia.
  - intros i Hi. destruct SW as (_ & H1 & H2 & H3).
    destruct (Nat.eq_dec i a) as [->|]; [exists b; auto|].
    destruct (Nat.eq_dec i b) as [->|]; [exists a; auto|].
    exists i. auto.
Qed.

Lemma gpart_ok fuel s p l h lo :
  lo <= l -> l <= h -> h <= p -> p < length s -> h - l < fuel ->
  (forall i, lo <= i < l -> le (nth i s d) (nth p s d)) ->
  (forall i, h <= i <= p -> le (nth p s d) (nth i s d)) ->
  exists s' l', gpart fuel s p l h = Ok (s', l') /\ lo <= l' <= p /\
    seg lo p s s' /\ nth p s' d = nth p s d /\
    (forall i, lo <= i < l' -> le (nth i s' d) (nth p s d)) /\
    (forall i, l' <= i <= p -> le (nth p s d) (nth i s' d)).
Proof.
  revert s l h; induction fuel as [|fuel IH]; intros s l h H1 H2 H3 H4 Hf HL HH; [lia|].
  cbn [gpart].
  destruct (@gscan_l_ok (h - l) s p h l) as (l1 & E1 & B1 & L1 & N1); try lia.
  rewrite E1. cbn [bind].
  destruct (@gscan_h_ok (h - l1) s p h l1) as (h1 & E2 & B2 & L2 & N2); try lia.
  rewrite E2. cbn [bind].
  destruct (Nat.ltb_spec l1 h1) as [Hlt|Hge].
  - assert (Hh : h1 < h).
    { destruct (Nat.eq_dec h1 h) as [->|]; [|lia]. exfalso. apply N2; [lia|apply HH; lia]. }
    destruct (@swap_at_ok s l1 h1) as (s1 & E3 & SW); try lia.
    rewrite E3. cbn [bind].
    destruct SW as (HSL & Sa & Sb & So).
    assert (Hp : nth p s1 d = nth p s d) by (apply So; lia).
    destruct (IH s1 l1 h1) as (s2 & l2 & E & B & SG & HP & HA & HB); try lia.
    + intros i Hi. rewrite Hp, So by lia.
      destruct (le_lt_dec l i); [apply L1; lia | apply HL; lia].
    + intros i Hi. rewrite Hp.
      destruct (Nat.eq_dec i h1) as [->|].
      * rewrite Sb. apply cmp_ge.
        destruct (Z_le_gt_dec (cmp (nth l1 s d) (nth p s d)) 0) as [HC|HC]; [|lia].
        exfalso. apply N1; [lia|]. now apply cmp_le.
      * destruct (le_lt_dec i h).
        -- rewrite So by lia. apply L2. lia.
        -- rewrite So by lia. apply HH. lia.
    + exists s2, l2. split; auto. split; auto. split.
      * eapply seg_trans; [|exact SG]. apply swapped_seg with (a := l1) (b := h1); try lia.
        repeat split; auto.
      * rewrite HP, Hp. rewrite Hp in HA, HB. auto.
  - assert (h1 = l1) by lia. subst h1.
    exists s, l1. split; auto. split; [lia|]. split; [apply seg_refl|]. split; auto. split.
    + intros i Hi. destruct (le_lt_dec l i); [apply L1; lia | apply HL; lia].
    + intros i Hi. destruct (le_lt_dec h i); [apply HH; lia|].
      destruct (Nat.eq_dec i l1) as [->|].
      * apply cmp_ge.
        destruct (Z_le_gt_dec (cmp (nth l1 s d) (nth p s d)) 0) as [HC|HC]; [|lia].
        exfalso. apply N1; [lia|]. now apply cmp_le.
      * apply L2. lia.
Qed.

Definition sorted_seg (lo hi1 : nat) (s : list A) : Prop :=
  forall i j, lo <= i -> i <= j -> j < hi1 -> le (nth i s d) (nth j s d).

Lemma combine_halves s s1 s2 lo l hi1 :
  lo <= l < hi1 ->
  (forall i, lo <= i < l -> le (nth i s d) (nth l s d)) ->
  (forall i, l < i < hi1 -> le (nth l s d) (nth i s d)) ->
  (seg lo l s s1 /\ seg (l + 1) hi1 s1 s2 \/ seg (l + 1) hi1 s s1 /\ seg lo l s1 s2) ->
  sorted_seg lo l s2 -> sorted_seg (l + 1) hi1 s2 -> sorted_seg lo hi1 s2.
Proof.
  intros Hl HA HB HS S1 S2.
  assert (Hlow : forall i, lo <= i < l -> le (nth i s2 d) (nth l s d)).
  { intros i Hi. destruct HS as [[(_ & O1 & I1) (_ & O2 & I2)] | [(_ & O1 & I1) (_ & O2 & I2)]].
    - rewrite O2 by lia. destruct (I1 i Hi) as (j & Hj & ->). auto.
    - destruct (I2 i Hi) as (j & Hj & ->). rewrite O1 by lia. auto. }
  assert (Hhigh : forall i, l < i < hi1 -> le (nth l s d) (nth i s2 d)).
  { intros i Hi. destruct HS as [[(_ & O1 & I1) (_ & O2 & I2)] | [(_ & O1 & I1) (_ & O2 & I2)]].
    - destruct (I2 i) as (j & Hj & ->); [lia|]. rewrite O1 by lia. apply HB. lia.
    - rewrite O2 by lia. destruct (I1 i) as (j & Hj & ->); [lia|]. apply HB. lia. }
  assert (Hmid : nth l s2 d = nth l s d).
  { destruct HS as [[(_ & O1 & I1) (_ & O2 & I2)] | [(_ & O1 & I1) (_ & O2 & I2)]];
      rewrite O2, O1 by lia; auto. }
  intros i j H1 H2 H3.
  destruct (lt_eq_lt_dec i l) as [[Hi| ->]|Hi]; destruct (lt_eq_lt_dec j l) as [[Hj| ->]|Hj];
    try lia.
  - apply S1; lia.
  - rewrite Hmid. auto.
  - apply le_trans with (nth l s d); auto.
  - apply le_refl.
  - rewrite Hmid. auto.
  - apply S2; lia.
Qed.

Theorem gqsort_ok fuel s lo hi1 :
  hi1 <= length s -> hi1 - lo <= fuel ->
  exists s', gqsort fuel s lo hi1 = Ok s' /\ seg lo hi1 s s' /\ sorted_seg lo hi1 s'.
Proof.
  revert s lo hi1; induction fuel as [|fuel IH]; intros s lo hi1 HL Hf; cbn [gqsort];
    destruct (Nat.leb_spec hi1 (lo + 1)) as [Hs|Hs].
  - exists s. split; auto. split; [apply seg_refl|]. intros i j ? ? ?. replace j with i by lia. apply le_refl.
  - lia.
  - exists s. split; auto. split; [apply seg_refl|]. intros i j ? ? ?. replace j with i by lia. apply le_refl.
  - rewrite (@rd_lt _ s (hi1 - 1) d) by lia. cbn [bind].
    destruct (@gpart_ok (S (hi1 - 1 - lo)) s (hi1 - 1) lo (hi1 - 1) lo)
      as (s1 & l & E & B & SG & HP & HA & HB); try lia.
    { intros i Hi. replace i with (hi1 - 1) by lia. apply le_refl. }
    rewrite E. cbn [bind].
    pose proof (seg_len SG) as HL1.
    rewrite (@rd_lt _ s1 l d) by lia. cbn [bind].
    rewrite wr_lt by lia. cbn [bind]. rewrite wr_lt by (rewrite upd_length; lia). cbn [bind].
    set (s2 := upd (upd s1 (hi1 - 1) (nth l s1 d)) l (nth (hi1 - 1) s d)).
    assert (HL2 : length s2 = length s) by (unfold s2; rewrite !upd_length; auto).
    assert (SW : swapped s1 s2 l (hi1 - 1)).
    { unfold s2. repeat split.
      - now rewrite !upd_length.
      - rewrite nth_upd_same by (rewrite upd_length; lia). auto.
      - destruct (Nat.eq_dec l (hi1 - 1)) as [->|].
        + rewrite nth_upd_same by (rewrite upd_length; lia). auto.
        + rewrite nth_upd_other, nth_upd_same by lia. auto.
      - intros i Hi1 Hi2. rewrite !nth_upd_other by auto. auto. }
    clearbody s2.
    assert (SG2 : seg lo hi1 s s2).
    { eapply seg_trans.
      - eapply seg_weaken; [| |exact SG]; lia.
      - apply swapped_seg with (a := l) (b := hi1 - 1); auto; lia. }
    assert (Hpl : nth l s2 d = nth (hi1 - 1) s d) by (destruct SW as (_ & -> & _); auto).
    assert (HA2 : forall i, lo <= i < l -> le (nth i s2 d) (nth l s2 d)).
    { intros i Hi. rewrite Hpl. destruct SW as (_ & _ & _ & SO). rewrite SO by lia. auto. }
    assert (HB2 : forall i, l < i < hi1 -> le (nth l s2 d) (nth i s2 d)).
    { intros i Hi. rewrite Hpl. destruct SW as (_ & _ & Sb & SO).
      destruct (Nat.eq_dec i (hi1 - 1)) as [->|].
      - rewrite Sb. apply HB. lia.
      - rewrite SO by lia. apply HB. lia. }
    destruct (Nat.ltb_spec (l - lo) (hi1 - 1 - l)).
    + destruct (IH s2 lo l) as (s3 & E3 & G3 & T3); try lia.
      rewrite E3. cbn [bind].
      destruct (IH s3 (l + 1) hi1) as (s4 & E4 & G4 & T4); try (rewrite ?(seg_len G3); lia).
      exists s4. split; auto. split.
      * eapply seg_trans; [exact SG2|]. eapply seg_trans.
        -- eapply seg_weaken; [| |exact G3]; lia.
        -- eapply seg_weaken; [| |exact G4]; lia.
      * eapply (@combine_halves s2 s3 s4 lo l hi1); auto; try lia.
        intros i j ? ? ?. destruct G4 as (_ & O4 & _). rewrite !O4 by lia. apply T3; auto.
    + destruct (IH s2 (l + 1) hi1) as (s3 & E3 & G3 & T3); try lia.
      rewrite E3. cbn [bind].
      destruct (IH s3 lo l) as (s4 & E4 & G4 & T4); try (rewrite ?(seg_len G3); lia).
      exists s4. split; auto. split.
      * eapply seg_trans; [exact SG2|]. eapply seg_trans.
        -- eapply seg_weaken; [| |exact G3]; lia.
        -- eapply seg_weaken; [| |exact G4]; lia.
      * eapply (@combine_halves s2 s3 s4 lo l hi1); auto; try lia.
        intros i j ? ? ?. destruct G4 as (_ & O4 & _). rewrite !O4 by lia. apply T3; auto.
Qed.

End GSort.
