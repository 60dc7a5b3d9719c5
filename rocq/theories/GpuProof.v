(** * GpuProof: the OpenMP directives on a table with one entry per buffer. *)
From Verif Require Import Base GpuModel GpuSpec.
Set Implicit Arguments.

Section GpuProof.
Variable V : Type.
Variable dv : V.
Local Notation world := (world V).
Local Notation dmap := (dmap V).

Definition hostb (w : world) (b : nat) : list V := nth b (w_host w) [].
Definition dlook (t : list dmap) (b : nat) : option dmap :=
  find (fun m => rg_buf (dm_rg m) =? b) t.
Definition mbuf (m : dmap) : nat := rg_buf (dm_rg m).
Definition tab_ok (w : world) : Prop := NoDup (map mbuf (w_dev w)).

Lemma dlook_in t b m : dlook t b = Some m -> In m t /\ mbuf m = b.
Proof.
  intros H. apply find_some in H. destruct H as [H1 H2]. apply Nat.eqb_eq in H2. auto.
Qed.

Lemma dlook_none t b : dlook t b = None -> forall m, In m t -> mbuf m <> b.
Proof.
  intros H m Hm E. pose proof (find_none _ _ H m Hm) as F. cbn in F.
  apply Nat.eqb_neq in F. auto.
Qed.

Lemma dlook_none_notin t b : dlook t b = None <-> ~ In b (map mbuf t).
Proof.
  split.
  - intros H Hin. apply in_map_iff in Hin. destruct Hin as (m & E & Hm).
    exact (@dlook_none t b H m Hm E).
  - intros H. destruct (dlook t b) as [m|] eqn:E; [|reflexivity].
    apply dlook_in in E. destruct E as [E1 E2]. elim H. rewrite <- E2. now apply in_map.
Qed.

Lemma find_covers t r : NoDup (map mbuf t) ->
  find (covers r) t = match dlook t (rg_buf r) with
                      | Some m => if covers r m then Some m else None
                      | None => None end.
Proof.
  induction t as [|m t IH]; intros Hn; cbn [find dlook]; [reflexivity|].
  cbn [map] in Hn. inversion Hn as [|x l Hx Hl E]; subst.
  destruct (Nat.eqb_spec (rg_buf (dm_rg m)) (rg_buf r)) as [E|E].
  - destruct (covers r m) eqn:C; [reflexivity|].
    fold (dlook t (rg_buf r)) in IH. rewrite (IH Hl).
    assert (N : dlook t (rg_buf r) = None)
      by (apply dlook_none_notin; rewrite <- E; exact Hx).
    rewrite N. reflexivity.
  - assert (C : covers r m = false)
      by (unfold covers; rewrite (proj2 (Nat.eqb_neq _ _) E); reflexivity).
    rewrite C. apply IH. exact Hl.
Qed.

Lemma no_overlap t r : dlook t (rg_buf r) = None -> existsb (overlaps r) t = false.
Proof.
  intros H. destruct (existsb (overlaps r) t) eqn:E; [|reflexivity].
  apply existsb_exists in E. destruct E as (m & Hm & Ho).
  unfold overlaps in Ho. apply andb_true_iff in Ho. destruct Ho as [Ho _].
  apply andb_true_iff in Ho. destruct Ho as [Ho _]. apply Nat.eqb_eq in Ho.
  elim (@dlook_none t (rg_buf r) H m Hm). exact Ho.
Qed.

Lemma dev_subst_look t r f m :
  NoDup (map mbuf t) -> dlook t (rg_buf r) = Some m -> covers r m = true ->
  (forall m', f m = Some m' -> mbuf m' = mbuf m) ->
  NoDup (map mbuf (dev_subst r f t)) /\
  (forall b, dlook (dev_subst r f t) b = if b =? rg_buf r then f m else dlook t b).
Proof.
  intros Hn Hd Hc Hf.
  induction t as [|x t IH]; [discriminate|].
  cbn [map] in Hn. inversion Hn as [|y l Hx Hl E]; subst.
  cbn [dev_subst]. unfold dlook in Hd. cbn [find] in Hd.
  destruct (Nat.eqb_spec (rg_buf (dm_rg x)) (rg_buf r)) as [E|E].
  - injection Hd as ->. rewrite Hc.
    assert (N : dlook t (rg_buf r) = None)
      by (apply dlook_none_notin; rewrite <- E; exact Hx).
    destruct (f m) as [m'|] eqn:Ef.
    + pose proof (Hf _ eq_refl) as Hb. split.
      * cbn [map]. constructor; [rewrite Hb; exact Hx | exact Hl].
      * intros b. unfold dlook. cbn [find]. unfold mbuf in Hb. rewrite Hb, E.
        destruct (Nat.eqb_spec (rg_buf r) b) as [<-|Nb].
        -- rewrite Nat.eqb_refl. reflexivity.
        -- rewrite (proj2 (Nat.eqb_neq b (rg_buf r))) by congruence.
           reflexivity.
    + split; [exact Hl|]. intros b.
      destruct (Nat.eqb_spec b (rg_buf r)) as [->|Nb]; [exact N|].
      unfold dlook. cbn [find]. rewrite E.
      rewrite (proj2 (Nat.eqb_neq (rg_buf r) b)) by congruence. reflexivity.
  - assert (C : covers r x = false)
      by (unfold covers; rewrite (proj2 (Nat.eqb_neq _ _) E); reflexivity).
    rewrite C. fold (dlook t (rg_buf r)) in Hd. destruct (IH Hl Hd) as [I1 I2]. split.
    + cbn [map]. constructor; [|exact I1].
      intros Hin. apply Hx.
      destruct (dlook t (mbuf x)) as [q|] eqn:Q.
      * apply dlook_in in Q. destruct Q as [Q1 Q2]. rewrite <- Q2. now apply in_map.
      * exfalso. pose proof (I2 (mbuf x)) as I3. unfold mbuf in I3 at 2.
        rewrite (proj2 (Nat.eqb_neq _ _) E) in I3. rewrite Q in I3.
        apply dlook_none_notin in I3. auto.
    + intros b. unfold dlook. cbn [find].
      destruct (Nat.eqb_spec (rg_buf (dm_rg x)) b) as [<-|Nb].
      * rewrite (proj2 (Nat.eqb_neq _ _) E). reflexivity.
      * apply I2.
Qed.

(** ** What a region holds *)
Definition host_has (w : world) (r : region) (c : list V) : Prop :=
  rg_off r = 0 /\ rg_buf r < length (w_host w) /\ length c = rg_len r /\
  firstn (rg_len r) (hostb w (rg_buf r)) = c.
Definition no_dev (w : world) (r : region) : Prop := dlook (w_dev w) (rg_buf r) = None.
Definition dev_has (w : world) (r : region) (d : list V) : Prop :=
  rg_off r = 0 /\ length d = rg_len r /\
  dlook (w_dev w) (rg_buf r) = if rg_len r =? 0 then None else Some (Dm r d 1).

(** [w'] differs from [w] only in the contents and mappings of buffers [bs]. *)
Record chg (w w' : world) (bs : list nat) : Prop := {
  c_cell : w_cell w' = w_cell w;
  c_obj : w_obj w' = w_obj w;
  c_len : length (w_host w') = length (w_host w);
  c_blen : forall b, length (hostb w' b) = length (hostb w b);
  c_host : forall b, ~ In b bs -> hostb w' b = hostb w b;
  c_dev : forall b, ~ In b bs -> dlook (w_dev w') b = dlook (w_dev w) b;
  c_tab : tab_ok w' }.

Lemma chg_refl w bs : tab_ok w -> chg w w bs.
Proof. intros. constructor; auto. Qed.

Lemma chg_trans w1 w2 w3 b1 b2 :
  chg w1 w2 b1 -> chg w2 w3 b2 -> chg w1 w3 (b1 ++ b2).
Proof.
  intros A B. constructor.
  - rewrite (c_cell B). apply (c_cell A).
  - rewrite (c_obj B). apply (c_obj A).
  - rewrite (c_len B). apply (c_len A).
  - intros b. rewrite (c_blen B). apply (c_blen A).
  - intros b H. rewrite (c_host B), (c_host A); auto; intros X; apply H, in_app_iff; auto.
  - intros b H. rewrite (c_dev B), (c_dev A); auto; intros X; apply H, in_app_iff; auto.
  - apply (c_tab B).
Qed.

Lemma chg_mono w1 w2 b1 b2 : chg w1 w2 b1 -> incl b1 b2 -> chg w1 w2 b2.
Proof.
  intros A H. constructor; try apply A; intros b Hb; apply A; auto.
Qed.

Lemma host_has_frame w w' bs r c :
  chg w w' bs -> ~ In (rg_buf r) bs -> host_has w r c -> host_has w' r c.
Proof.
  intros C N (A & B & L & E). repeat split; auto.
  - rewrite (c_len C). exact B.
  - rewrite (c_host C) by exact N. exact E.
Qed.

Lemma no_dev_frame w w' bs r :
  chg w w' bs -> ~ In (rg_buf r) bs -> no_dev w r -> no_dev w' r.
Proof. intros C N H. unfold no_dev. rewrite (c_dev C) by exact N. exact H. Qed.

Lemma dev_has_frame w w' bs r c :
  chg w w' bs -> ~ In (rg_buf r) bs -> dev_has w r c -> dev_has w' r c.
Proof.
  intros C N (A & L & E). repeat split; auto. rewrite (c_dev C) by exact N. exact E.
Qed.

(** ** slices *)
Lemma slice_ok (l : list V) off len : off + len <= length l -> slice l off len = Ok (firstn len (skipn off l)).
Proof. intros H. unfold slice. rewrite (proj2 (Nat.leb_le _ _) H). reflexivity. Qed.
Lemma splice_ok (l : list V) off vs : off + length vs <= length l ->
  splice l off vs = Ok (firstn off l ++ vs ++ skipn (off + length vs) l).
Proof. intros H. unfold splice. rewrite (proj2 (Nat.leb_le _ _) H). reflexivity. Qed.

Lemma firstn_skipn_sub (l : list V) n lo len : lo + len <= n ->
  firstn len (skipn lo (firstn n l)) = firstn len (skipn lo l).
Proof.
  intros H. rewrite skipn_firstn_comm, firstn_firstn. f_equal. lia.
Qed.

Lemma firstn_splice (l : list V) n lo vs : lo + length vs <= n -> n <= length l ->
  firstn n (firstn lo l ++ vs ++ skipn (lo + length vs) l) =
  firstn lo (firstn n l) ++ vs ++ skipn (lo + length vs) (firstn n l).
Proof.
  intros H1 H2.
  rewrite firstn_app, firstn_length, Nat.min_l by lia.
  rewrite (firstn_all2 (n := n)) by (rewrite firstn_length; lia).
  rewrite firstn_firstn, Nat.min_l by lia. f_equal.
  rewrite firstn_app. rewrite firstn_all2 by lia. f_equal.
  rewrite skipn_firstn_comm. f_equal. lia.
Qed.

Lemma splice_length (l : list V) lo vs : lo + length vs <= length l ->
  length (firstn lo l ++ vs ++ skipn (lo + length vs) l) = length l.
Proof. intros H. rewrite !app_length, firstn_length, skipn_length. lia. Qed.

Lemma hostb_rd w b : b < length (w_host w) -> rd (w_host w) b = Ok (hostb w b).
Proof. intros H. now apply rd_lt. Qed.

Lemma host_len w r c : host_has w r c -> rg_len r <= length (hostb w (rg_buf r)).
Proof.
  intros (A & B & L & E). rewrite <- E, firstn_length in L. lia.
Qed.

Lemma host_read_sub w r c lo len : host_has w r c -> lo + len <= length c ->
  host_read w (Rg (rg_buf r) lo len) = Ok (firstn len (skipn lo c)).
Proof.
  intros H Hl. pose proof (host_len H) as HL. destruct H as (A & B & L & E).
  unfold host_read. cbn [rg_buf rg_off rg_len]. rewrite hostb_rd by exact B. cbn [bind].
  rewrite slice_ok by lia. f_equal. rewrite <- E. symmetry. apply firstn_skipn_sub. lia.
Qed.

Lemma host_read_has w r c : host_has w r c -> host_read w r = Ok c.
Proof.
  intros H. pose proof (@host_read_sub w r c 0 (length c) H (le_n _)) as E.
  cbn [skipn] in E. rewrite firstn_all in E. rewrite <- E. f_equal.
  destruct H as (A & B & L & _). destruct r as [b o n]. cbn in *. now subst.
Qed.

Lemma hostb_upd w b x b' : b < length (w_host w) ->
  nth b' (upd (w_host w) b x) [] = if b =? b' then x else hostb w b'.
Proof.
  intros H. rewrite nth_upd. rewrite (proj2 (Nat.ltb_lt _ _) H), andb_true_r. reflexivity.
Qed.

Lemma chg_set_host w b x : tab_ok w -> b < length (w_host w) -> length x = length (hostb w b) ->
  chg w (set_host w (upd (w_host w) b x)) [b].
Proof.
  intros T B L. constructor; cbn; auto.
  - apply upd_length.
  - intros b'. unfold hostb at 1. cbn. rewrite hostb_upd by exact B.
    destruct (Nat.eqb_spec b b') as [<-|]; auto.
  - intros b' Hb. unfold hostb at 1. cbn. rewrite hostb_upd by exact B.
    rewrite (proj2 (Nat.eqb_neq b b')) by (intros ->; apply Hb; now left). reflexivity.
Qed.

Lemma host_write_sub w r c lo vs : tab_ok w -> host_has w r c -> lo + length vs <= length c ->
  exists w', host_write w (Rg (rg_buf r) lo (length vs)) vs = Ok w' /\
    chg w w' [rg_buf r] /\ w_dev w' = w_dev w /\
    host_has w' r (firstn lo c ++ vs ++ skipn (lo + length vs) c).
Proof.
  intros T H Hl. pose proof (host_len H) as HL. destruct H as (A & B & L & E).
  unfold host_write. cbn [rg_buf rg_off rg_len]. rewrite hostb_rd by exact B. cbn [bind].
  rewrite splice_ok by lia. cbn [bind].
  eexists. split; [reflexivity|]. split; [|split; [reflexivity|]].
  - apply chg_set_host; auto. apply splice_length. lia.
  - repeat split; auto.
    + cbn. rewrite upd_length. exact B.
    + rewrite splice_length by lia. exact L.
    + unfold hostb. cbn. rewrite hostb_upd by exact B. rewrite Nat.eqb_refl.
      fold (hostb w (rg_buf r)).
      rewrite firstn_splice by lia. rewrite E. reflexivity.
Qed.

Lemma host_write_has w r c vs : tab_ok w -> host_has w r c -> length vs = rg_len r ->
  exists w', host_write w r vs = Ok w' /\ chg w w' [rg_buf r] /\ w_dev w' = w_dev w /\
    host_has w' r vs.
Proof.
  intros T H Hl. pose proof H as (A & B & L & E).
  destruct (@host_write_sub w r c 0 vs T H) as (w' & E1 & C & D & HH); [lia|].
  exists w'. split; [|split; [exact C|split; [exact D|]]].
  - rewrite <- E1. f_equal. destruct r as [b o n]. cbn in *. now subst.
  - cbn [firstn app] in HH. rewrite skipn_all2, app_nil_r in HH by (cbn; lia). exact HH.
Qed.

(** ** device side *)
Lemma dev_find w r d lo len : tab_ok w -> dev_has w r d -> lo + len <= length d -> 0 < len ->
  find (covers (Rg (rg_buf r) lo len)) (w_dev w) = Some (Dm r d 1).
Proof.
  intros T (A & L & E) Hl Hp. rewrite find_covers by exact T. cbn [rg_buf]. rewrite E.
  destruct (Nat.eqb_spec (rg_len r) 0); [lia|].
  unfold covers. cbn [dm_rg rg_buf rg_off rg_len]. rewrite Nat.eqb_refl, A.
  rewrite (proj2 (Nat.leb_le 0 lo)) by lia.
  rewrite (proj2 (Nat.leb_le (lo + len) (0 + rg_len r))) by lia. reflexivity.
Qed.

Lemma dev_read_sub w r d lo len : tab_ok w -> dev_has w r d -> lo + len <= length d ->
  dev_read w (Rg (rg_buf r) lo len) = Ok (firstn len (skipn lo d)).
Proof.
  intros T H Hl. unfold dev_read. cbn [rg_len rg_off].
  destruct (Nat.eqb_spec len 0) as [->|N]; [reflexivity|].
  rewrite (@dev_find w r d lo len T H Hl) by lia. cbn [dm_dev dm_rg].
  destruct H as (A & L & E). rewrite A, Nat.sub_0_r. apply slice_ok. exact Hl.
Qed.

Lemma dev_read_has w r d : tab_ok w -> dev_has w r d -> dev_read w r = Ok d.
Proof.
  intros T H. pose proof (@dev_read_sub w r d 0 (length d) T H (le_n _)) as E.
  cbn [skipn] in E. rewrite firstn_all in E. rewrite <- E. f_equal.
  destruct H as (A & L & _). destruct r as [b o n]. cbn in *. now subst.
Qed.

Lemma chg_set_dev w t b : NoDup (map mbuf t) ->
  (forall b', b' <> b -> dlook t b' = dlook (w_dev w) b') ->
  chg w (set_dev w t) [b].
Proof.
  intros T H. constructor; cbn; auto.
  intros b' Hb. apply H. intros ->. apply Hb. now left.
Qed.

Lemma dev_write_sub w r d lo vs : tab_ok w -> dev_has w r d -> lo + length vs <= length d ->
  exists w', dev_write w (Rg (rg_buf r) lo (length vs)) vs = Ok w' /\
    chg w w' [rg_buf r] /\ w_host w' = w_host w /\
    dev_has w' r (firstn lo d ++ vs ++ skipn (lo + length vs) d).
Proof.
  intros T H Hl. unfold dev_write. cbn [rg_len rg_off].
  destruct (Nat.eqb_spec (length vs) 0) as [Z|N].
  - exists w. split; [reflexivity|]. split; [apply chg_refl; exact T|]. split; [reflexivity|].
    destruct vs; [|discriminate]. cbn [length app]. rewrite Nat.add_0_r, firstn_skipn. exact H.
  - pose proof (@dev_find w r d lo (length vs) T H Hl) as F. rewrite F by lia. cbn [dm_dev dm_rg].
    destruct H as (A & L & E). rewrite A, Nat.sub_0_r. rewrite splice_ok by exact Hl. cbn [bind].
    destruct (Nat.eqb_spec (rg_len r) 0) as [Z|Z]; [lia|].
    destruct (@dev_subst_look (w_dev w) (Rg (rg_buf r) lo (length vs))
       (fun m => Some (Dm (dm_rg m) (firstn lo d ++ vs ++ skipn (lo + length vs) d) (dm_cnt m)))
       (Dm r d 1) T E) as [I1 I2].
    { unfold covers. cbn [dm_rg rg_buf rg_off rg_len]. rewrite Nat.eqb_refl, A.
      rewrite (proj2 (Nat.leb_le 0 lo)) by lia.
      rewrite (proj2 (Nat.leb_le (lo + length vs) (0 + rg_len r))) by lia. reflexivity. }
    { intros m' Em. injection Em as <-. reflexivity. }
    eexists. split; [reflexivity|]. split; [|split; [reflexivity|]].
    + apply chg_set_dev; [exact I1|]. intros b' Hb. rewrite I2. cbn [rg_buf].
      rewrite (proj2 (Nat.eqb_neq _ _) Hb). reflexivity.
    + repeat split; auto.
      * rewrite splice_length by exact Hl. exact L.
      * cbn [set_dev w_dev]. rewrite I2. cbn [rg_buf dm_rg dm_cnt]. rewrite Nat.eqb_refl.
        rewrite (proj2 (Nat.eqb_neq _ _) Z). reflexivity.
Qed.

Lemma dev_write_has w r d vs : tab_ok w -> dev_has w r d -> length vs = rg_len r ->
  exists w', dev_write w r vs = Ok w' /\ chg w w' [rg_buf r] /\ w_host w' = w_host w /\
    dev_has w' r vs.
Proof.
  intros T H Hl. pose proof H as (A & L & E).
  destruct (@dev_write_sub w r d 0 vs T H) as (w' & E1 & C & D & HH); [lia|].
  exists w'. split; [|split; [exact C|split; [exact D|]]].
  - rewrite <- E1. f_equal. destruct r as [b o n]. cbn in *. now subst.
  - cbn [firstn app] in HH. rewrite skipn_all2, app_nil_r in HH by (cbn; lia). exact HH.
Qed.

(** ** The directives *)
Lemma enter_spec w r c : tab_ok w -> host_has w r c -> no_dev w r ->
  exists w', enter_to w r = Ok w' /\ chg w w' [rg_buf r] /\ host_has w' r c /\ dev_has w' r c.
Proof.
  intros T H D. pose proof H as (A & B & L & E). unfold enter_to.
  destruct (Nat.eqb_spec (rg_len r) 0) as [Z|Z].
  - exists w. split; [reflexivity|]. split; [apply chg_refl; exact T|]. split; [exact H|].
    repeat split; auto. rewrite Z. exact D.
  - rewrite find_covers by exact T. unfold no_dev in D. rewrite D.
    rewrite no_overlap by exact D. rewrite (host_read_has H). cbn [bind].
    eexists. split; [reflexivity|]. split; [|split].
    + apply chg_set_dev.
      * cbn [map]. constructor; [|exact T]. now apply dlook_none_notin.
      * intros b' Hb. unfold dlook. cbn [find dm_rg].
        rewrite (proj2 (Nat.eqb_neq (rg_buf r) b')) by congruence. reflexivity.
    + exact H.
    + repeat split; auto. cbn [set_dev w_dev dlook]. unfold dlook. cbn [find dm_rg].
      rewrite Nat.eqb_refl. rewrite (proj2 (Nat.eqb_neq _ _) Z). reflexivity.
Qed.

Lemma zero_no_dev w r d : dev_has w r d -> rg_len r = 0 -> no_dev w r.
Proof. intros (A & L & E) Z. unfold no_dev. rewrite E, Z. reflexivity. Qed.

Lemma zero_same w r (c d : list V) : host_has w r c -> dev_has w r d -> rg_len r = 0 -> c = d.
Proof.
  intros (_ & _ & L & _) (_ & L' & _) Z. rewrite Z in *.
  apply length_zero_iff_nil in L, L'. congruence.
Qed.

Lemma whole_find w r d : tab_ok w -> dev_has w r d -> rg_len r <> 0 ->
  find (covers r) (w_dev w) = Some (Dm r d 1) /\ covers r (Dm r d 1) = true.
Proof.
  intros T H Z. pose proof H as (A & L & E).
  assert (C : covers r (Dm r d 1) = true).
  { unfold covers. cbn [dm_rg rg_off rg_len rg_buf]. rewrite Nat.eqb_refl, !Nat.leb_refl. reflexivity. }
  split; [|exact C].
  rewrite find_covers by exact T. rewrite E. rewrite (proj2 (Nat.eqb_neq _ _) Z).
  rewrite C. reflexivity.
Qed.

Lemma delete_spec w r d : tab_ok w -> dev_has w r d -> rg_len r <> 0 ->
  chg w (set_dev w (dev_subst r (fun _ => None) (w_dev w))) [rg_buf r] /\
  no_dev (set_dev w (dev_subst r (fun _ => None) (w_dev w))) r.
Proof.
  intros T H Z. destruct (whole_find T H Z) as [F C]. pose proof H as (A & L & E).
  rewrite (proj2 (Nat.eqb_neq _ _) Z) in E.
  destruct (@dev_subst_look (w_dev w) r (fun _ => None) (Dm r d 1) T E C) as [I1 I2];
    [discriminate|].
  split.
  - apply chg_set_dev; [exact I1|]. intros b' Hb. rewrite I2.
    rewrite (proj2 (Nat.eqb_neq _ _) Hb). reflexivity.
  - unfold no_dev. cbn [set_dev w_dev]. rewrite I2, Nat.eqb_refl. reflexivity.
Qed.

Lemma exit_spec copy w r c d : tab_ok w -> host_has w r c -> dev_has w r d ->
  exists w', exit_data copy w r = Ok w' /\ chg w w' [rg_buf r] /\
    host_has w' r (if copy then d else c) /\ no_dev w' r.
Proof.
  intros T H D. unfold exit_data.
  destruct (Nat.eqb_spec (rg_len r) 0) as [Z|Z].
  - exists w. split; [reflexivity|]. split; [apply chg_refl; exact T|].
    split; [|exact (zero_no_dev D Z)].
    destruct copy; [|exact H]. rewrite <- (zero_same H D Z). exact H.
  - destruct (whole_find T D Z) as [F C]. rewrite F. cbn [dm_cnt]. cbn [Nat.leb].
    destruct copy.
    + rewrite (dev_read_has T D). cbn [bind].
      pose proof D as (A & L & _).
      destruct (@host_write_has w r c d T H L) as (w1 & E1 & C1 & D1 & H1).
      rewrite E1. cbn [bind].
      assert (D' : dev_has w1 r d) by (unfold dev_has; rewrite D1; exact D).
      destruct (delete_spec (c_tab C1) D' Z) as [C2 N2].
      eexists. split; [reflexivity|]. split; [|split].
      * eapply chg_mono; [exact (chg_trans C1 C2)|]. intros b Hb. cbn in *. tauto.
      * exact H1.
      * exact N2.
    + cbn [bind]. destruct (delete_spec T D Z) as [C2 N2].
      eexists. split; [reflexivity|]. split; [exact C2|]. split; [exact H|exact N2].
Qed.

Lemma update_to_spec w r c d : tab_ok w -> host_has w r c -> dev_has w r d ->
  exists w', update_to w r = Ok w' /\ chg w w' [rg_buf r] /\ host_has w' r c /\ dev_has w' r c.
Proof.
  intros T H D. unfold update_to.
  destruct (Nat.eqb_spec (rg_len r) 0) as [Z|Z].
  - exists w. split; [reflexivity|]. split; [apply chg_refl; exact T|].
    split; [exact H|]. rewrite (zero_same H D Z). exact D.
  - destruct (whole_find T D Z) as [F C]. rewrite F. rewrite (host_read_has H). cbn [bind].
    pose proof H as (_ & _ & L & _).
    destruct (@dev_write_has w r d c T D L) as (w1 & E1 & C1 & D1 & H1).
    exists w1. split; [exact E1|]. split; [exact C1|]. split; [|exact H1].
    unfold host_has, hostb. rewrite D1. exact H.
Qed.

Lemma update_from_spec w r c d : tab_ok w -> host_has w r c -> dev_has w r d ->
  exists w', update_from w r = Ok w' /\ chg w w' [rg_buf r] /\ host_has w' r d /\ dev_has w' r d.
Proof.
  intros T H D. unfold update_from.
  destruct (Nat.eqb_spec (rg_len r) 0) as [Z|Z].
  - exists w. split; [reflexivity|]. split; [apply chg_refl; exact T|].
    split; [|exact D]. rewrite <- (zero_same H D Z). exact H.
  - destruct (whole_find T D Z) as [F C]. rewrite F. rewrite (dev_read_has T D). cbn [bind].
    pose proof D as (_ & L & _).
    destruct (@host_write_has w r c d T H L) as (w1 & E1 & C1 & D1 & H1).
    exists w1. split; [exact E1|]. split; [exact C1|]. split; [exact H1|].
    unfold dev_has. rewrite D1. exact D.
Qed.

(** ** A directive applied to a list of sections of different buffers *)
Lemma each_gen A (f : world -> region -> res world) (P Q : world -> region -> A -> Prop) :
  (forall w r a, tab_ok w -> P w r a ->
     exists w', f w r = Ok w' /\ chg w w' [rg_buf r] /\ Q w' r a) ->
  (forall w w' r a bs, chg w w' bs -> ~ In (rg_buf r) bs -> P w r a -> P w' r a) ->
  (forall w w' r a bs, chg w w' bs -> ~ In (rg_buf r) bs -> Q w r a -> Q w' r a) ->
  forall rs l w, tab_ok w -> NoDup (map rg_buf rs) -> Forall2 (P w) rs l ->
  exists w', each_ f w rs = Ok w' /\ chg w w' (map rg_buf rs) /\ Forall2 (Q w') rs l.
Proof.
  intros Hf HP HQ. induction rs as [|r rs IH]; intros l w T N F.
  - inversion F; subst. exists w. split; [reflexivity|]. split; [now apply chg_refl|constructor].
  - inversion F as [|r' a rs' l' Hr Hrs]; subst. cbn [map] in N.
    inversion N as [|x y Nx Ny]; subst.
    destruct (Hf w r a T Hr) as (w1 & E1 & C1 & Q1).
    destruct (IH l' w1 (c_tab C1) Ny) as (w2 & E2 & C2 & Q2).
    { assert (G : forall ks zs, (forall k, In k ks -> In k rs) -> Forall2 (P w) ks zs -> Forall2 (P w1) ks zs).
      { clear - HP C1 Nx. intros ks zs Hin H. induction H; constructor.
        - eapply HP; [exact C1| |exact H]. cbn. intros [E|[]].
          apply Nx. rewrite E. apply in_map. apply Hin. now left.
        - apply IHForall2. intros k Hk. apply Hin. now right. }
      apply (G rs l'); auto. }
    exists w2. cbn [each_]. rewrite E1. cbn [bind]. split; [exact E2|]. split.
    + exact (chg_trans C1 C2).
    + constructor; [|exact Q2]. eapply HQ; [exact C2|exact Nx|exact Q1].
Qed.

End GpuProof.
