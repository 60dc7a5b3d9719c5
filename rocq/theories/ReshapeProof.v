(** * ReshapeProof: tensor_Dense::reshape *)
From Verif Require Import Base Scalar Spec Loops DenseModel TensorModel TensorSpec TensorProof.
Set Implicit Arguments.

Lemma prod_app a b : prod (a ++ b) = prod a * prod b.
Proof. induction a as [|d a IH]; cbn; [lia|]. rewrite IH. lia. Qed.

Lemma given_snoc req z : given (req ++ [z]) = if (z <? 0)%Z then given req else given req * Z.to_nat z.
Proof.
  unfold given. rewrite filter_app, map_app, prod_app. cbn.
  destruct (Z.ltb_spec z 0); destruct (Z.leb_spec 0 z); cbn; lia.
Qed.
Lemma negatives_snoc req z : negatives (req ++ [z]) = if (z <? 0)%Z then negatives req + 1 else negatives req.
Proof.
  unfold negatives. rewrite filter_app, app_length. cbn. destruct (z <? 0)%Z; cbn; lia.
Qed.

Definition fillneg (q : nat) (z : Z) : nat := if (z <? 0)%Z then q else Z.to_nat z.

Lemma prod_fillneg q req : prod (map (fillneg q) req) = given req * q ^ negatives req.
Proof.
  induction req as [|z req IH] using rev_ind; [reflexivity|].
  rewrite map_app, prod_app, IH, given_snoc, negatives_snoc. cbn. unfold fillneg.
  destruct (z <? 0)%Z; [|lia]. rewrite Nat.pow_add_r. cbn. lia.
Qed.

Lemma fillneg_resolves q req : resolves req (map (fillneg q) req).
Proof.
  induction req as [|z req IH]; cbn; constructor; auto.
  unfold fillneg. destruct (Z.ltb_spec z 0); [left; auto|right; lia].
Qed.

Lemma reshape_scan_ok old req : exists sh,
  reshape_scan old req = Ok (sh, negatives req, given req) /\ length sh = length req /\
  forall i, i < length req -> (0 <= nth i req 0)%Z -> nth i sh 0 = Z.to_nat (nth i req 0%Z).
Proof.
  unfold reshape_scan.
  match goal with |- exists sh, for_ 0 ?n ?B ?s = _ /\ _ =>
  destruct (@for0_inv (list nat * nat * nat) (fun k st => let '(sh, mi, N) := st in length sh = length req /\
     mi = negatives (firstn k req) /\ N = given (firstn k req) /\
     forall i, i < k -> (0 <= nth i req 0)%Z -> nth i sh 0 = Z.to_nat (nth i req 0%Z)) n B s)
   as ([[sh mi] N] & E & HL & -> & -> & HN) end.
  - split; [apply vresize_length|]. repeat split; auto. intros; lia.
  - intros k [[sh mi] N] Hk (HL & -> & -> & HN).
    rewrite (@rd_lt _ req k 0%Z) by auto. cbn [bind]. rewrite (@firstn_S_nth _ req k 0%Z) by auto.
    rewrite given_snoc, negatives_snoc. destruct (Z.ltb_spec (nth k req 0%Z) 0).
    + eexists; split; [reflexivity|]. repeat split; auto. intros i Hi Hz.
      apply HN; auto. destruct (Nat.eq_dec i k); [subst; lia|lia].
    + rewrite wr_lt by lia. cbn [bind]. eexists; split; [reflexivity|].
      split; [now rewrite upd_length|]. repeat split; auto. intros i Hi Hz.
      destruct (Nat.eq_dec k i) as [<-|]; [rewrite nth_upd_same by lia; auto|].
      rewrite nth_upd_other by auto. apply HN; auto. lia.
  - exists sh. rewrite firstn_all in E. auto.
Qed.

Lemma reshape_infer_ok sh req nnz N : length sh = length req -> 0 < N ->
  (forall i, i < length req -> (0 <= nth i req 0)%Z -> nth i sh 0 = Z.to_nat (nth i req 0%Z)) ->
  reshape_infer sh req nnz N = Ok (map (fillneg (nnz / N)) req, prod (map (fillneg (nnz / N)) req)).
Proof.
  intros HL HN HS. unfold reshape_infer. rewrite HL.
  set (g := map (fillneg (nnz / N)) req).
  assert (Hg : length g = length req) by apply map_length.
  match goal with |- for_ 0 ?n ?B ?s = _ =>
  destruct (@for0_inv (list nat * nat) (fun k st => length (fst st) = length req /\
     snd st = prod (firstn k g) /\ (forall i, i < k -> nth i (fst st) 0 = nth i g 0) /\
     (forall i, k <= i < length req -> nth i (fst st) 0 = nth i sh 0)) n B s) as ([sh' M] & E & H1 & H2 & H3 & _) end.
  - cbn. repeat split; auto. intros; lia.
  - intros k [sh' M] Hk (H1 & H2 & H3 & H4). cbn [fst snd] in *.
    rewrite (@rd_lt _ req k 0%Z) by auto. cbn [bind].
    assert (Eg : nth k g 0 = fillneg (nnz / N) (nth k req 0%Z)).
    { unfold g. rewrite nth_indep with (d' := fillneg (nnz / N) 0%Z) by (rewrite map_length; lia). apply map_nth. }
    assert (G : exists sh2, (if (nth k req 0 <? 0)%Z then if N =? 0 then UB else wr sh' k (nnz / N) else Ok sh') = Ok sh2 /\
       length sh2 = length req /\ nth k sh2 0 = nth k g 0 /\ forall i, i <> k -> nth i sh2 0 = nth i sh' 0).
    { rewrite Eg. unfold fillneg. destruct (Z.ltb_spec (nth k req 0%Z) 0).
      - destruct (Nat.eqb_spec N 0); [lia|]. rewrite wr_lt by lia. eexists; split; [reflexivity|].
        split; [now rewrite upd_length|]. split; [apply nth_upd_same; lia|].
        intros i Hi. apply nth_upd_other. auto.
      - exists sh'. split; auto. split; auto. split; auto. rewrite H4 by lia. apply HS; auto. }
    destruct G as (sh2 & -> & G1 & G2 & G3). cbn [bind].
    rewrite (@rd_lt _ sh2 k 0) by lia. cbn [bind]. eexists; split; [reflexivity|]. cbn [fst snd].
    split; auto. split; [|split].
    + rewrite (@firstn_S_nth _ g k 0) by lia. rewrite prod_app, H2, G2. cbn. lia.
    + intros i Hi. destruct (Nat.eq_dec i k) as [->|]; auto. rewrite G3 by auto. apply H3. lia.
    + intros i Hi. rewrite G3 by lia. apply H4. lia.
  - cbn [fst snd] in *. rewrite E. f_equal. rewrite <- Hg in H2. rewrite firstn_all in H2. rewrite <- H2. f_equal.
    apply list_ext with (d := 0); [lia|]. intros i Hi. apply H3. lia.
Qed.

Section Reshape.
Context {F : Type} {SF : Scalar F}.

Lemma scan_noneg sh req : length sh = length req -> negatives req = 0 ->
  (forall i, i < length req -> (0 <= nth i req 0)%Z -> nth i sh 0 = Z.to_nat (nth i req 0%Z)) ->
  sh = map (fillneg 0) req.
Proof.
  intros HL HZ HS. apply list_ext with (d := 0); [now rewrite map_length|]. intros i Hi.
  rewrite nth_indep with (l := map _ _) (d' := fillneg 0 0%Z) by (rewrite map_length; lia).
  rewrite map_nth. unfold fillneg.
  destruct (Z.ltb_spec (nth i req 0%Z) 0) as [H|H]; [|apply HS; auto; lia].
  exfalso. assert (X : In (nth i req 0%Z) (filter (fun z => (z <? 0)%Z) req)).
  { apply filter_In. split; [apply nth_In; lia|]. apply Z.ltb_lt. auto. }
  unfold negatives in HZ. destruct (filter _ req); cbn in *; [auto|lia].
Qed.

(** full description of the outcome *)
Theorem td_reshape_outcome (t : tdense F) req :
  snd (td_reshape t req) =
    (if 2 <=? negatives req then Throw
     else if negatives req =? 1 then
       (if given req =? 0 then UB else require_ (given req * (t_nnz t / given req) =? t_nnz t))
     else require_ (given req =? t_nnz t)).
Proof.
  unfold td_reshape. destruct (reshape_scan_ok (t_shape t) req) as (sh & -> & HL & HS).
  destruct (Nat.leb_spec 2 (negatives req)); auto.
  destruct (Nat.eqb_spec (negatives req) 1) as [E1|E1]; auto.
  destruct (Nat.eqb_spec (given req) 0) as [E0|E0].
  - (* division by zero *)
    assert (X : exists i, i < length req /\ (nth i req 0 < 0)%Z).
    { unfold negatives in E1. destruct (filter (fun z => (z <? 0)%Z) req) as [|z l] eqn:Ef; [cbn in E1; lia|].
      assert (Hz : In z (filter (fun z => (z <? 0)%Z) req)) by (rewrite Ef; cbn; auto).
      apply filter_In in Hz. destruct Hz as [Hz Hlt]. destruct (In_nth _ _ 0%Z Hz) as (i & Hi & Ei).
      exists i. split; auto. rewrite Ei. now apply Z.ltb_lt. }
    assert (G : reshape_infer sh req (t_nnz t) (given req) = UB).
    { destruct X as (i0 & Hi0 & Hz0). unfold reshape_infer. rewrite E0, HL. cbn [Nat.eqb].
      (* first negative position *)
      assert (Y : exists j, j < length req /\ (nth j req 0 < 0)%Z /\ forall i, i < j -> (0 <= nth i req 0)%Z).
      { clear - Hi0 Hz0. revert i0 Hi0 Hz0; induction req as [|z req IH]; intros i0 Hi Hz; cbn in Hi; [lia|].
        destruct (Z_lt_ge_dec z 0).
        - exists 0. cbn. split; [lia|]. split; auto. intros; lia.
        - destruct i0 as [|i0]; [cbn in Hz; lia|]. destruct (IH i0) as (j & Hj & Hn & Hf); [lia|auto|].
          exists (S j). cbn. split; [lia|]. split; auto. intros [|i] Hi'; cbn; [lia|]. apply Hf. lia. }
      destruct Y as (j & Hj & Hn & Hf).
      rewrite (@for_split _ 0 j) by lia.
      match goal with |- bind (for_ 0 j ?B ?s) _ = _ =>
      destruct (@for0_inv (list nat * nat) (fun k st => length (fst st) = length req) j B s) as ([sh' M] & E & H1) end; auto.
      { intros k [sh' M] Hk H1. cbn [fst] in *. rewrite (@rd_lt _ req k 0%Z) by lia. cbn [bind].
        specialize (Hf k Hk). destruct (Z.ltb_spec (nth k req 0%Z) 0); [lia|]. cbn [bind].
        rewrite (@rd_lt _ sh' k 0) by lia. cbn [bind]. eexists; split; [reflexivity|auto]. }
      rewrite E. cbn [bind]. unfold for_. destruct (length req - j) as [|m] eqn:Em; [lia|]. cbn [iter_ fst].
      rewrite (@rd_lt _ req j 0%Z) by lia. cbn [bind]. apply Z.ltb_lt in Hn. rewrite Hn. reflexivity. }
    rewrite G. reflexivity.
  - rewrite (@reshape_infer_ok sh req (t_nnz t) (given req)) by (auto; lia). cbn [snd].
    rewrite prod_fillneg, E1, Nat.pow_1_r. reflexivity.
Qed.

(** the object left behind by a successful call *)
Theorem td_reshape_success (t : tdense F) req :
  td_ok t -> snd (td_reshape t req) = Ok tt ->
  let t' := fst (td_reshape t req) in
  resolves req (t_shape t') /\ prod (t_shape t') = t_nnz t /\ t' = t_set_shape t (t_shape t') /\ td_ok t'.
Proof.
  intros W H. pose proof (td_reshape_outcome t req) as O. rewrite H in O. symmetry in O.
  unfold td_reshape. destruct (reshape_scan_ok (t_shape t) req) as (sh & -> & HL & HS).
  destruct (Nat.leb_spec 2 (negatives req)); [discriminate|].
  assert (K : forall s, prod s = t_nnz t -> td_ok (t_set_shape t s)).
  { intros s Hs. destruct W as (W1 & W2 & W3). repeat split; cbn; auto. }
  destruct (Nat.eqb_spec (negatives req) 1) as [E1|E1].
  - destruct (Nat.eqb_spec (given req) 0) as [E0|E0]; [discriminate|].
    rewrite (@reshape_infer_ok sh req (t_nnz t) (given req)) by (auto; lia). cbn [fst t_shape t_set_shape].
    destruct (Nat.eqb_spec (given req * (t_nnz t / given req)) (t_nnz t)) as [E|]; [|discriminate].
    assert (P : prod (map (fillneg (t_nnz t / given req)) req) = t_nnz t)
      by (rewrite prod_fillneg, E1, Nat.pow_1_r; auto).
    split; [apply fillneg_resolves|]. split; auto.
  - assert (E2 : negatives req = 0) by lia.
    rewrite (@scan_noneg sh req HL E2 HS). cbn [fst t_shape t_set_shape].
    destruct (Nat.eqb_spec (given req) (t_nnz t)) as [E|]; [|discriminate].
    assert (P : prod (map (fillneg 0) req) = t_nnz t) by (rewrite prod_fillneg, E2, Nat.pow_0_r; lia).
    split; [apply fillneg_resolves|]. split; auto.
Qed.

End Reshape.
