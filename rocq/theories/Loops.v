(** * Loops: reusable lemmas about the loops of the model. *)
From Verif Require Import Base.
Set Implicit Arguments.

(** A loop whose iteration [i] rewrites only slot [off+i] from its own old value. *)
Lemma elem_loop {A} (d : A) (f : nat -> A -> A) lo hi off (body : nat -> list A -> res (list A)) t :
  lo <= hi -> off + hi <= length t ->
  (forall i t', lo <= i < hi -> length t' = length t ->
     body i t' = Ok (upd t' (off + i) (f i (nth (off + i) t' d)))) ->
  exists t', for_ lo hi body t = Ok t' /\ length t' = length t /\
    forall k, nth k t' d = if (off + lo <=? k) && (k <? off + hi) then f (k - off) (nth k t d)
                           else nth k t d.
Proof.
  intros Hlh Hlen Hb.
  destruct (@for_inv (list A)
    (fun i t' => length t' = length t /\
       forall k, nth k t' d = if (off + lo <=? k) && (k <? off + i) then f (k - off) (nth k t d)
                              else nth k t d) lo hi body t) as (t' & E & HL & HN); auto.
  - split; auto. intros k.
    destruct (Nat.leb_spec (off + lo) k); destruct (Nat.ltb_spec k (off + lo)); cbn; auto; lia.
  - intros i t' Hi [HL HN]. rewrite Hb by auto. eexists; split; eauto.
    split; [now rewrite upd_length|].
    intros k. destruct (Nat.eq_dec (off + i) k) as [<-|Hne].
    + rewrite nth_upd_same by lia. rewrite HN.
      destruct (Nat.leb_spec (off + lo) (off + i)); [|lia].
      destruct (Nat.ltb_spec (off + i) (off + i)); [lia|].
      destruct (Nat.ltb_spec (off + i) (off + S i)); [|lia]. cbn.
      now replace (off + i - off) with i by lia.
    + rewrite nth_upd_other by auto. rewrite HN.
      destruct (Nat.leb_spec (off + lo) k); cbn [andb]; auto.
      destruct (Nat.ltb_spec k (off + i)); destruct (Nat.ltb_spec k (off + S i)); auto; lia.
  - exists t'. auto.
Qed.

(** copy n elements: for (i<n) t[off+i] = src[soff+i] *)
Lemma copy_loop {A} (d : A) n off soff (src t : list A) :
  off + n <= length t -> soff + n <= length src ->
  exists t', for_ 0 n (fun i t => x <- rd src (soff + i) ;; wr t (off + i) x) t = Ok t' /\
    length t' = length t /\
    forall k, nth k t' d = if (off <=? k) && (k <? off + n) then nth (soff + (k - off)) src d
                           else nth k t d.
Proof.
  intros H1 H2.
  destruct (@elem_loop A d (fun i _ => nth (soff + i) src d) 0 n off
    (fun i t => x <- rd src (soff + i) ;; wr t (off + i) x) t) as (t' & E & HL & HN);
    try lia.
  - intros i t' Hi HL. rewrite (@rd_lt A src (soff + i) d) by lia. cbn [bind].
    apply wr_lt. lia.
  - exists t'. split; [exact E|]. split; auto. intros k. rewrite HN, Nat.add_0_r. reflexivity.
Qed.

Lemma copy_loop0 {A} (d : A) n (src t : list A) :
  n <= length t -> n <= length src ->
  for_ 0 n (fun i t => x <- rd src i ;; wr t i x) t = Ok (firstn n src ++ skipn n t).
Proof.
  intros H1 H2.
  destruct (@copy_loop A d n 0 0 src t) as (t' & E & HL & HN); try lia.
  cbn [Nat.add] in E. rewrite E. f_equal.
  apply list_ext with (d := d).
  - rewrite HL, app_length, firstn_length, skipn_length. lia.
  - intros i Hi. rewrite HN. cbn [Nat.leb andb Nat.add]. rewrite Nat.sub_0_r.
    destruct (Nat.ltb_spec i n).
    + rewrite app_nth1 by (rewrite firstn_length; lia). now rewrite nth_firstn.
    + rewrite app_nth2 by (rewrite firstn_length; lia).
      rewrite firstn_length, nth_skipn. f_equal. lia.
Qed.

(** fill: for (i = lo; i < hi) t[off+i] = v *)
Lemma fill_loop {A} (d v : A) lo hi off (t : list A) :
  lo <= hi -> off + hi <= length t ->
  exists t', for_ lo hi (fun i t => wr t (off + i) v) t = Ok t' /\ length t' = length t /\
    forall k, nth k t' d = if (off + lo <=? k) && (k <? off + hi) then v else nth k t d.
Proof.
  intros H1 H2.
  apply (@elem_loop A d (fun _ _ => v) lo hi off); auto.
  intros i t' Hi HL. apply wr_lt. lia.
Qed.

Lemma fill_loop0 {A} (v : A) lo hi (t : list A) :
  lo <= hi -> hi <= length t ->
  for_ lo hi (fun i t => wr t i v) t = Ok (firstn lo t ++ repeat v (hi - lo) ++ skipn hi t).
Proof.
  intros H1 H2.
  destruct (@fill_loop A v v lo hi 0 t) as (t' & E & HL & HN); try lia.
  cbn [Nat.add] in E. rewrite E. f_equal.
  apply list_ext with (d := v).
  - rewrite HL, !app_length, firstn_length, repeat_length, skipn_length. lia.
  - intros i Hi. rewrite HN. cbn [Nat.add].
    destruct (Nat.leb_spec lo i); cbn [andb].
    + rewrite app_nth2 by (rewrite firstn_length; lia).
      rewrite firstn_length, Nat.min_l by lia.
      destruct (Nat.ltb_spec i hi).
      * rewrite app_nth1 by (rewrite repeat_length; lia).
        now rewrite nth_repeat by lia.
      * rewrite app_nth2 by (rewrite repeat_length; lia).
        rewrite repeat_length, nth_skipn. f_equal. lia.
    + rewrite app_nth1 by (rewrite firstn_length; lia). now rewrite nth_firstn.
Qed.

Lemma firstn_upd_ge {A} (l : list A) n i v : n <= i -> firstn n (upd l i v) = firstn n l.
Proof.
  revert n i; induction l as [|x l IH]; intros [|n] [|i] H; cbn; auto; try lia.
  rewrite IH by lia. auto.
Qed.

Lemma firstn_S_nth {A} (l : list A) n d : n < length l -> firstn (S n) l = firstn n l ++ [nth n l d].
Proof.
  revert n; induction l as [|x l IH]; intros [|n] H; cbn in *; try lia; auto.
  rewrite <- IH by lia. auto.
Qed.

Lemma combine_upd {A B} (l : list A) (k : list B) i a b :
  combine (upd l i a) (upd k i b) = upd (combine l k) i (a, b).
Proof.
  revert k i; induction l as [|x l IH]; intros [|y k] [|i]; cbn; auto.
  now rewrite IH.
Qed.

Lemma combine_firstn {A B} (l : list A) (k : list B) n :
  firstn n (combine l k) = combine (firstn n l) (firstn n k).
Proof.
  revert k n; induction l as [|x l IH]; intros [|y k] [|n]; cbn; auto.
  now rewrite IH.
Qed.

Lemma combine_app_eq {A B} (l l' : list A) (k k' : list B) :
  length l = length k -> combine (l ++ l') (k ++ k') = combine l k ++ combine l' k'.
Proof.
  revert k; induction l as [|x l IH]; intros [|y k] H; cbn in *; try lia; auto.
  now rewrite IH by lia.
Qed.

(** two nested loops, iteration (i,j) rewriting slot [slot i j] from its own old value *)
Lemma grid_loop {A} (d : A) n1 n2 (slot : nat -> nat -> nat) (g : nat -> nat -> A -> A)
  (body : nat -> nat -> list A -> res (list A)) (t : list A) :
  (forall i j, i < n1 -> j < n2 -> slot i j < length t) ->
  (forall i j i' j', i < n1 -> j < n2 -> i' < n1 -> j' < n2 -> slot i j = slot i' j' -> i = i' /\ j = j') ->
  (forall i j w, i < n1 -> j < n2 -> length w = length t ->
     body i j w = Ok (upd w (slot i j) (g i j (nth (slot i j) w d)))) ->
  exists w, for_ 0 n1 (fun i w => for_ 0 n2 (body i) w) t = Ok w /\ length w = length t /\
    (forall i j, i < n1 -> j < n2 -> nth (slot i j) w d = g i j (nth (slot i j) t d)) /\
    (forall q, (forall i j, i < n1 -> j < n2 -> slot i j <> q) -> nth q w d = nth q t d).
Proof.
  intros Hs Hinj Hb.
  destruct (@for0_inv (list A) (fun i w => length w = length t /\
     (forall i' j, i' < i -> j < n2 -> nth (slot i' j) w d = g i' j (nth (slot i' j) t d)) /\
     (forall q, (forall i' j, i' < i -> j < n2 -> slot i' j <> q) -> nth q w d = nth q t d)) n1
     (fun i w => for_ 0 n2 (body i) w) t) as (w & E & HL & H1 & H2).
  - split; auto. split; intros; [lia|auto].
  - intros i w Hi (HL & H1 & H2).
    destruct (@for0_inv (list A) (fun j w' => length w' = length t /\
       (forall j', j' < j -> nth (slot i j') w' d = g i j' (nth (slot i j') t d)) /\
       (forall q, (forall j', j' < j -> slot i j' <> q) -> nth q w' d = nth q w d)) n2 (body i) w)
      as (w2 & E2 & HL2 & G1 & G2).
    + split; auto. split; intros; [lia|auto].
    + intros j w' Hj (HL' & G1 & G2). rewrite Hb by auto. eexists; split; [reflexivity|].
      split; [now rewrite upd_length|]. split.
      * intros j' Hj'. destruct (Nat.eq_dec j' j) as [->|Hne].
        -- rewrite nth_upd_same by (rewrite HL'; auto). f_equal. rewrite G2.
           ++ apply H2. intros i' j'' Hi' Hj'' He. apply Hinj in He; auto; lia.
           ++ intros j'' Hj'' He. apply Hinj in He; auto; lia.
        -- rewrite nth_upd_other; [apply G1; lia|]. intros He. apply Hinj in He; auto; lia.
      * intros q Hq. rewrite nth_upd_other by (apply Hq; lia). apply G2. intros. apply Hq. lia.
    + exists w2. split; auto. split; auto. split.
      * intros i' j Hi' Hj. destruct (Nat.eq_dec i' i) as [->|Hne]; [apply G1; auto|].
        rewrite G2; [apply H1; auto; lia|]. intros j' Hj' He. apply Hinj in He; auto; lia.
      * intros q Hq. rewrite G2 by (intros; apply Hq; lia). apply H2. intros. apply Hq; lia.
  - exists w. auto.
Qed.
