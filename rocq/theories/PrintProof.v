(** * PrintProof: lemmas about print_all. *)
From Coq Require Import ZArith NArith Ascii.
From Verif Require Import Base Scalar Spec DenseModel CooModel Observe CrsModel CrsObserve TensorModel TensorSpec TensorProof
  TensorCrsModel TensorCrsSpec ViewModel ViewSpec IoModel PrintModel PrintSpec.
Import ListNotations.
Open Scope list_scope.
Open Scope nat_scope.
Set Implicit Arguments.

Lemma for_app {A} lo hi (g : nat -> list A) (body : nat -> list A -> res (list A)) out :
  (forall i o, lo <= i < hi -> body i o = Ok (o ++ g i)) ->
  for_ lo hi body out = Ok (out ++ flat_map g (seq lo (hi - lo))).
Proof.
  intros H. rewrite (for_pure (fun i o => o ++ g i)) by exact H. f_equal.
  generalize (seq lo (hi - lo)). intros l. revert out. induction l as [|i l IH]; intros out; cbn.
  - now rewrite app_nil_r.
  - now rewrite IH, app_assoc.
Qed.

Lemma flat_map_ext_in {A B} (f g : A -> list B) l : (forall x, In x l -> f x = g x) -> flat_map f l = flat_map g l.
Proof. induction l as [|x l IH]; intros H; cbn; auto. rewrite H by now left. f_equal. apply IH. intros; apply H. now right. Qed.
Lemma flat_map_map' {A B C} (f : B -> list C) (g : A -> B) l : flat_map f (map g l) = flat_map (fun x => f (g x)) l.
Proof. induction l as [|x l IH]; cbn; auto. now rewrite IH. Qed.
Lemma flat_map_flat_map {A B C} (f : B -> list C) (g : A -> list B) l :
  flat_map f (flat_map g l) = flat_map (fun x => flat_map f (g x)) l.
Proof. induction l as [|x l IH]; cbn; auto. now rewrite flat_map_app, IH. Qed.
Lemma map_seq_nth' {A} (l : list A) d : map (fun i => nth i l d) (seq 0 (length l)) = l.
Proof.
  induction l as [|x l IH]; cbn; auto. f_equal. rewrite <- seq_shift, map_map. exact IH.
Qed.

Lemma printed_flat {F} (pv : F -> text) l : printed pv l = flat_map (line pv) l.
Proof. unfold printed. now rewrite flat_map_concat_map. Qed.

(** ** positions *)
Lemma positions_in shape p : In p (positions shape) <-> inside shape p.
Proof.
  revert p. induction shape as [|n s IH]; intros p; cbn.
  - split; [intros [<-|[]]; constructor|]. intros H. inversion H. now left.
  - rewrite in_flat_map. split.
    + intros (i & Hi & Hp). apply in_map_iff in Hp as (q & <- & Hq). apply in_seq in Hi.
      constructor; [lia|]. now apply IH.
    + intros H. inversion H; subst. exists x. split; [apply in_seq; lia|]. apply in_map. now apply IH.
Qed.

Lemma positions_length shape : length (positions shape) = prod shape.
Proof.
  induction shape as [|n s IH]; cbn; auto.
  assert (G : forall l, length (flat_map (fun i => map (cons i) (positions s)) l) = length l * prod s).
  { induction l as [|x l IHl]; cbn; auto. rewrite app_length, map_length, IH, IHl. lia. }
  rewrite G, seq_length. lia.
Qed.

Lemma flat_map_const_nth {A} (f : nat -> list A) m n d : forall lo k, (forall i, lo <= i < lo + n -> length (f i) = m) -> k < n * m ->
  nth k (flat_map f (seq lo n)) d = nth (k mod m) (f (lo + k / m)) d.
Proof.
  induction n as [|n IH]; intros lo k Hl Hk; [lia|]. cbn [seq flat_map].
  assert (Hm : m <> 0) by nia.
  destruct (lt_dec k m) as [Hs|Hs].
  - rewrite app_nth1 by (rewrite Hl; lia). now rewrite Nat.mod_small, Nat.div_small, Nat.add_0_r by lia.
  - rewrite app_nth2 by (rewrite Hl; lia). rewrite Hl by lia.
    rewrite IH by (try lia; intros; apply Hl; lia).
    assert (E : k = (k - m) + 1 * m) by lia.
    rewrite E at 3 4. rewrite Nat.mod_add, Nat.div_add by lia. f_equal. f_equal. lia.
Qed.

Lemma positions_row_major shape : forall d, d < prod shape -> row_major shape (nth d (positions shape) []) = d.
Proof.
  induction shape as [|n s IH]; intros d Hd; cbn in *; [destruct d; auto; lia|].
  assert (Hm : prod s <> 0) by nia.
  rewrite flat_map_const_nth with (m := prod s); [|intros; now rewrite map_length, positions_length|exact Hd].
  rewrite Nat.add_0_l.
  rewrite nth_indep with (d' := cons (d / prod s) []).
  2: rewrite map_length, positions_length; now apply Nat.mod_upper_bound.
  rewrite map_nth. rewrite IH by now apply Nat.mod_upper_bound.
  rewrite (Nat.div_mod d (prod s)) at 3 by lia. lia.
Qed.

Lemma positions_inside shape d : d < prod shape -> inside shape (nth d (positions shape) []).
Proof. intros H. apply positions_in, nth_In. now rewrite positions_length. Qed.

Lemma unindex_positions shape d : d < prod shape -> t_unindex shape d = Ok (nth d (positions shape) []).
Proof.
  intros H. rewrite <- (positions_row_major shape H) at 1. apply t_unindex_row_major. now apply positions_inside.
Qed.

Lemma flat_map_positions {A} shape (f : list nat -> list A) :
  flat_map f (positions shape) = flat_map (fun d => f (nth d (positions shape) [])) (seq 0 (prod shape)).
Proof.
  rewrite <- positions_length. rewrite <- (map_seq_nth' (positions shape) []) at 1. now rewrite flat_map_map'.
Qed.

Section PrintProof.
Context {F : Type} {SF : Scalar F} (pv : F -> text).

Lemma line_cons i p (v : F) : line pv (i :: p, v) = p_ix i ++ line pv (p, v).
Proof. unfold line, p_ix. cbn [fst snd map concat]. now rewrite <- !app_assoc. Qed.
Lemma line_eq p (v : F) : line pv (p, v) = concat (map p_ix p) ++ p_val pv v.
Proof. reflexivity. Qed.

Lemma p_int_ok i : int_index i -> p_int i = Ok (p_ix i).
Proof. intros H. unfold p_int, defined_. unfold int_index in H. apply Z.ltb_lt in H. now rewrite H. Qed.

Lemma p_ints_ok l : (forall x, In x l -> int_index x) -> p_ints l = Ok (concat (map p_ix l)).
Proof.
  intros H. unfold p_ints. rewrite for_app with (g := fun k => p_ix (nth k l 0)).
  - rewrite Nat.sub_0_r. cbn [app]. f_equal.
    rewrite <- flat_map_concat_map. rewrite <- (map_seq_nth' l 0) at 2. now rewrite flat_map_map'.
  - intros i o Hi. rewrite (rd_lt _ 0) by lia. cbn [bind].
    rewrite p_int_ok by (apply H, nth_In; lia). reflexivity.
Qed.

Lemma print_range_ok (val : list F) lo n body : 
  (forall i, lo <= i < lo + n -> i < length val) ->
  (forall i o, body i o = (v <- rd val i ;; Ok (o ++ p_val pv v))) ->
  for_ lo (lo + n) body [] = Ok (printed pv (map (fun k => ([], nth (lo + k) val f0)) (seq 0 n))).
Proof.
  intros Hv Hb. rewrite for_app with (g := fun i => p_val pv (nth i val f0)).
  - cbn [app]. f_equal. rewrite printed_flat, flat_map_map'.
    replace (lo + n - lo) with n by lia.
    assert (E : seq lo n = map (fun k => lo + k) (seq 0 n)).
    { clear. revert lo. induction n as [|n IH]; intros lo; cbn; auto. f_equal; [lia|]. rewrite IH, <- seq_shift, map_map.
      apply map_ext. intros; lia. }
    rewrite E, flat_map_map'. apply flat_map_ext_in. reflexivity.
  - intros i o Hi. rewrite Hb, (rd_lt _ f0) by (apply Hv; lia). reflexivity.
Qed.

Lemma print_grid_ok (val : list F) off r c body :
  off + r * c <= length val ->
  (forall i j o, body i j o = (v <- rd val (off + i * c + j) ;; Ok (o ++ p_ix i ++ p_ix j ++ p_val pv v))) ->
  for_ 0 r (fun i out => for_ 0 c (body i) out) []
  = Ok (printed pv (flat_map (fun i => map (fun j => ([i; j], nth (off + i * c + j) val f0)) (seq 0 c)) (seq 0 r))).
Proof.
  intros Hl Hb.
  rewrite for_app with (g := fun i => flat_map (fun j => p_ix i ++ p_ix j ++ p_val pv (nth (off + i * c + j) val f0)) (seq 0 c)).
  - cbn [app]. f_equal. rewrite Nat.sub_0_r, printed_flat, flat_map_flat_map. apply flat_map_ext_in.
    intros i _. rewrite flat_map_map'. apply flat_map_ext_in. intros j _.
    now rewrite !line_cons.
  - intros i o Hi. rewrite for_app with (g := fun j => p_ix i ++ p_ix j ++ p_val pv (nth (off + i * c + j) val f0)).
    + now rewrite Nat.sub_0_r.
    + intros j o' Hj. rewrite Hb, (rd_lt _ f0) by nia. reflexivity.
Qed.

Lemma print_tensor_ok (val : list F) off shape body :
  off + prod shape <= length val ->
  (forall i o, body i o = (ind <- t_unindex shape i ;; v <- rd val (off + i) ;; Ok (o ++ concat (map p_ix ind) ++ p_val pv v))) ->
  for_ 0 (prod shape) body []
  = Ok (printed pv (map (fun p => (p, nth (off + row_major shape p) val f0)) (positions shape))).
Proof.
  intros Hl Hb.
  rewrite for_app with (g := fun d => line pv (nth d (positions shape) [], nth (off + d) val f0)).
  - cbn [app]. f_equal. rewrite Nat.sub_0_r, printed_flat, flat_map_map', flat_map_positions.
    apply flat_map_ext_in. intros d Hd. apply in_seq in Hd. now rewrite positions_row_major by lia.
  - intros i o Hi. rewrite Hb, unindex_positions by lia. cbn [bind]. rewrite (rd_lt _ f0) by lia. reflexivity.
Qed.

(** one row of a CRS matrix *)
Lemma print_crs_ok (a : crs F) : crs_readable a -> m_first a = 0 -> (Z.of_nat (m_col a) < 2 ^ 31)%Z ->
  print_crs pv a = Ok (printed pv (map (fun e => ([fst (fst e); snd (fst e)], snd e)) (crs_entries a))).
Proof.
  intros (b & S & O) H0 Hc.
  destruct S as (S1 & S2 & S3 & S4 & S5 & S6 & S7 & S8 & S9).
  destruct O as (O1 & O2 & O3 & O4 & O5 & O6 & O7 & O8).
  assert (Hmono : forall i j, i <= j -> j <= m_row b -> rpn b i <= rpn b j).
  { intros i j Hij. induction Hij as [|j Hij IH]; intros Hj; auto.
    specialize (IH ltac:(lia)). specialize (O3 j ltac:(lia)). replace (j + 1) with (S j) in O3 by lia. lia. }
  unfold print_crs.
  rewrite for_app with (g := fun i => flat_map (fun e => line pv ([i; fst e], snd e)) (crs_row a i)).
  - cbn [app]. f_equal. rewrite Nat.sub_0_r, printed_flat, flat_map_map'. unfold crs_entries.
    rewrite flat_map_flat_map. apply flat_map_ext_in. intros i _. now rewrite flat_map_map'.
  - intros i o Hi. rewrite (rd_lt _ 0) by lia. cbn [bind]. rewrite (rd_lt _ 0) by lia. cbn [bind].
    fold (rpn a i). fold (rpn a (i + 1)).
    rewrite for_app with (g := fun k => line pv ([i; cin a k], vln a k)).
    + do 2 f_equal. unfold crs_row. now rewrite flat_map_map'.
    + intros k o' Hk. specialize (S9 i ltac:(lia)). 
      assert (K : k < m_nnz b).
      { specialize (Hmono (i + 1) (m_row b) ltac:(lia) ltac:(lia)). lia. }
      rewrite (rd_lt _ 0) by (rewrite S3; lia). cbn [bind].
      fold (cin a k).
      assert (C : cin a k < m_col b) by (unfold cin; rewrite S3; now apply O6).
      rewrite p_int_ok by (unfold int_index; lia). cbn [bind].
      rewrite (rd_lt _ f0) by (rewrite S4; lia). cbn [bind].
      rewrite line_cons, line_cons. unfold vln. now rewrite H0.
Qed.

End PrintProof.
Section PrintTensor.
Context {F : Type} {SF : Scalar F} (pv : F -> text).

Lemma print_tcoo_ok (q : tcoo F) : tc_ok q -> print_tcoo pv q = Ok (printed pv (tc_entries q)).
Proof.
  intros (H1 & H2 & H3 & _). unfold print_tcoo.
  rewrite for_app with (g := fun k => line pv (nth k (q_index q) [], nth k (q_val q) f0)).
  - cbn [app]. f_equal. rewrite Nat.sub_0_r, printed_flat.
    assert (L : length (tc_entries q) = q_nnz q).
    { unfold tc_entries. rewrite firstn_length, combine_length. lia. }
    rewrite <- (map_seq_nth' (tc_entries q) ([], f0)), L, flat_map_map'.
    apply flat_map_ext_in. intros k Hk. apply in_seq in Hk. f_equal.
    unfold tc_entries. rewrite <- (combine_nth (q_index q) (q_val q)) by lia.
    rewrite <- (firstn_skipn (q_nnz q) (combine (q_index q) (q_val q))) at 1.
    rewrite app_nth1; [reflexivity|]. rewrite firstn_length, combine_length. lia.
  - intros i o Hi. rewrite (rd_lt _ []) by lia. cbn [bind]. rewrite (rd_lt _ f0) by lia. reflexivity.
Qed.

(** entries of slice [d] *)
Definition slice_entries (A : tcrs F) (p : list nat) (d : nat) : list (list nat * F) :=
  flat_map (fun i => map (fun e => (p ++ [i; fst e], snd e)) (crs_row (tr_slice A d) i)) (seq 0 (n_rows (k_shape A))).

Lemma tr_off_S (A : tcrs F) d : d < length (k_cis A) -> tr_off A (S d) = tr_off A d + length (nth d (k_cis A) []).
Proof.
  unfold tr_off. intros H. generalize dependent d. generalize (k_cis A). intros l.
  induction l as [|x l IH]; intros d H; [cbn in H; lia|].
  cbn in H. destruct d; [cbn; lia|].
  change (length x + list_sum (map (@length nat) (firstn (S d) l)) =
          length x + list_sum (map (@length nat) (firstn d l)) + length (nth d l [])).
  rewrite IH by lia. lia.
Qed.
Lemma tr_off_mono (A : tcrs F) d e : d <= e -> e <= length (k_cis A) -> tr_off A d <= tr_off A e.
Proof. induction 1 as [|e H IH]; intros Hl; auto. rewrite tr_off_S by lia. specialize (IH ltac:(lia)). lia. Qed.

Lemma inside_Forall (R : nat -> Prop) shape p : inside shape p -> (forall n i, In n shape -> i < n -> R i) -> forall x, In x p -> R x.
Proof.
  induction 1 as [|i n p s Hi H IH]; intros HR x Hx; [destruct Hx|].
  destruct Hx as [->|Hx]; [apply (HR n); [now left|exact Hi]|]. apply IH; auto. intros n' i' Hn. apply HR. now right.
Qed.

Lemma print_tcrs_ok (A : tcrs F) :
  tr_readable A -> k_first A + k_nnz A <= length (k_val A) ->
  (forall d, d < prod (slices (k_shape A)) -> length (nth d (k_rps A) []) = n_rows (k_shape A) + 1) ->
  (forall n, In n (k_shape A) -> int_range n) -> int_range (k_nnz A) ->
  print_tcrs pv A = Ok (printed pv
    (flat_map (fun p => flat_map (fun i => map (fun e => (p ++ [i; fst e], snd e)) (tr_row A p i)) (seq 0 (n_rows (k_shape A))))
       (positions (slices (k_shape A))))).
Proof.
  intros (R1 & R2 & R3 & R4 & R5) HV HL HI HN. unfold print_tcrs.
  assert (E2 : (2 <=? length (k_shape A)) = true) by now apply Nat.leb_le.
  rewrite E2. cbn [require_ bind]. set (sl := slices (k_shape A)) in *. set (rows := n_rows (k_shape A)) in *.
  assert (Hpos : forall d, d < prod sl -> forall x, In x (nth d (positions sl) []) -> int_index x).
  { intros d Hd. eapply inside_Forall; [now apply positions_inside|].
    intros n i Hn Hi. assert (int_range n).
    { apply HI. unfold sl, slices in Hn. rewrite <- (firstn_skipn (length (k_shape A) - 2) (k_shape A)). apply in_or_app. now left. }
    unfold int_range, int_index in *. lia. }
  assert (Hcol : (Z.of_nat (n_cols (k_shape A)) < 2 ^ 31)%Z).
  { apply HI. unfold n_cols. apply nth_In. lia. }
  match goal with |- context [for_ 0 ?n ?body ?s] =>
    destruct (@for0_inv _ (fun d st => st = (flat_map (fun d => flat_map (line pv) (slice_entries A (nth d (positions sl) []) d)) (seq 0 d), tr_off A d))
       n body s) as (st & E & P)
  end.
  - reflexivity.
  - intros d st Hd ->. rewrite R2 in Hd. fold sl in Hd.
    unfold tr_pos2. fold (slices (k_shape A)). fold sl. rewrite unindex_positions by exact Hd. cbn [bind].
    rewrite (rd_lt _ []) by lia. cbn [bind]. rewrite (rd_lt _ []) by lia. cbn [bind].
    rewrite HL by exact Hd. replace (rows + 1 - 1) with rows by lia.
    set (p := nth d (positions sl) []). set (rp := nth d (k_rps A) []). set (ci := nth d (k_cis A) []).
    destruct (R5 d Hd) as (b & Sm & O).
    destruct Sm as (S1 & S2 & S3 & S4 & S5 & S6 & S7 & S8 & S9).
    destruct O as (O1 & O2 & O3 & O4 & O5 & O6 & O7 & O8).
    unfold tr_slice in S1, S2, S3, S4, S5, S6, S7. cbn [m_row m_col m_rp m_ci m_val m_first m_nnz m_alloc] in S1, S2, S3, S4, S5, S6, S7.
    fold rows in S1, S7. fold ci in S3, S6.
    assert (Hmono : forall i j, i <= j -> j <= m_row b -> rpn b i <= rpn b j).
    { intros i j Hij. induction Hij as [|j Hij IH]; intros Hj; auto.
      specialize (IH ltac:(lia)). specialize (O3 j ltac:(lia)). replace (j + 1) with (S j) in O3 by lia. lia. }
    assert (Hoff : tr_off A d + length ci <= k_nnz A).
    { assert (T := tr_off_S A (d := d) ltac:(lia)). fold ci in T. rewrite <- T, <- R4. apply tr_off_mono; lia. }
    set (out0 := flat_map _ (seq 0 d)).
    match goal with |- exists s', for_ 0 rows ?body ?s = _ /\ _ =>
      destruct (@for0_inv _ (fun i st => st = (out0 ++ flat_map (line pv) (flat_map (fun i => map (fun e => (p ++ [i; fst e], snd e)) (crs_row (tr_slice A d) i)) (seq 0 i)), tr_off A d + rpn b i))
         rows body s) as (st & E & P)
    end.
    + cbn. now rewrite O2, Nat.add_0_r, app_nil_r.
    + intros i st Hi ->. assert (Lrp : length rp = rows + 1) by (apply HL; exact Hd).
      assert (Ef : forall k, k <= rows -> nth k rp 0 = rpn (tr_slice A d) k).
      { intros k Hk. unfold rpn, tr_slice. cbn [m_rp]. fold rows. fold rp. rewrite <- Lrp. now rewrite firstn_all. }
      rewrite (rd_lt _ 0) by lia. cbn [bind]. rewrite (rd_lt _ 0) by lia. cbn [bind].
      rewrite !Ef by lia.
      assert (S9i := S9 i ltac:(cbn [tr_slice m_row]; fold rows; lia)).
      set (lo := rpn (tr_slice A d) i) in *. set (hi := rpn (tr_slice A d) (i + 1)) in *.
      set (out1 := out0 ++ _).
      destruct (le_lt_dec hi lo) as [Hle|Hlt].
      * unfold for_. replace (hi - lo) with 0 by lia. cbn [iter_]. eexists. split; [reflexivity|].
        rewrite seq_S, flat_map_app. cbn [flat_map Nat.add]. unfold crs_row at 2. fold lo. fold hi. 
        replace (hi - lo) with 0 by lia. cbn [seq map app]. rewrite !app_nil_r. unfold out1. f_equal.
        specialize (O3 i ltac:(lia)). replace (S i) with (i + 1) by lia. lia.
      * assert (El : lo = rpn b i) by lia. assert (Eh : hi = rpn b (i + 1)) by lia.
        match goal with |- exists s', for_ lo hi ?body ?s = _ /\ _ =>
          destruct (@for_inv _ (fun j st => st = (out1 ++ flat_map (fun k => line pv (p ++ [i; cin (tr_slice A d) k], vln (tr_slice A d) k)) (seq lo (j - lo)), tr_off A d + j))
            lo hi body s) as (st & E & P)
        end.
        -- lia.
        -- rewrite Nat.sub_diag. cbn [seq flat_map]. rewrite app_nil_r. f_equal. lia.
        -- intros j st Hj ->. 
           rewrite p_ints_ok by (intros x Hx; eapply (Hpos d); eauto). cbn [bind].
           assert (Kb : j < m_nnz b).
           { specialize (Hmono (i + 1) (m_row b) ltac:(lia) ltac:(lia)). lia. }
           rewrite (rd_lt _ 0) by lia. cbn [bind].
           assert (C : nth j ci 0 < m_col b).
           { specialize (O6 j Kb). unfold cin in O6. now rewrite <- S3 in O6. }
           rewrite p_int_ok by (unfold int_index; rewrite <- S2 in C; lia). cbn [bind].
           rewrite (rd_lt _ f0) by lia. cbn [bind].
           assert (D : (Z.of_nat (tr_off A d + j) <? 2 ^ 31 - 1)%Z = true).
           { apply Z.ltb_lt. unfold int_range in HN. lia. }
           unfold defined_. rewrite D. cbn [bind]. eexists. split; [reflexivity|].
           f_equal; [|lia]. replace (S j - lo) with (S (j - lo)) by lia. rewrite seq_S, flat_map_app.
           cbn [flat_map]. rewrite app_nil_r, <- app_assoc. f_equal. f_equal.
           replace (lo + (j - lo)) with j by lia. unfold line. cbn [fst snd].
           rewrite map_app, concat_app. cbn [map concat]. rewrite app_nil_r, <- !app_assoc.
           unfold cin, vln, tr_slice, p_val, p_ix. cbn [m_ci m_val m_first]. fold ci.
           replace (k_first A + tr_off A d + j) with (k_first A + (tr_off A d + j)) by lia.
           rewrite <- !app_assoc. reflexivity.
        -- rewrite E. eexists. split; [reflexivity|]. rewrite P. rewrite seq_S, flat_map_app. cbn [flat_map Nat.add].
           rewrite app_nil_r. unfold out1. rewrite flat_map_app, app_assoc. f_equal.
           ++ f_equal. rewrite flat_map_map'. unfold crs_row. fold lo. fold hi. now rewrite flat_map_map'.
           ++ rewrite Eh. do 2 f_equal. lia.
    + rewrite E. eexists. split; [reflexivity|]. rewrite P. rewrite seq_S, flat_map_app. cbn [flat_map Nat.add].
      rewrite app_nil_r. fold p. unfold out0, slice_entries. fold rows. f_equal.
      rewrite tr_off_S by lia. fold ci. f_equal. rewrite <- S6, S1 in *. lia.
  - rewrite E. subst st. cbn [bind]. f_equal. rewrite printed_flat, flat_map_flat_map, flat_map_positions, R2. fold sl.
    apply flat_map_ext_in. intros d Hd. apply in_seq in Hd. unfold slice_entries, tr_row. fold rows. fold sl.
    now rewrite positions_row_major by lia.
Qed.
End PrintTensor.
