(** * VecProof: proofs for the vector and view properties. *)
From Coq Require Import Ring.
From Verif Require Import Base Scalar Loops Mem MemSpec ParProof VecModel KernelProof VecSpec.
Set Implicit Arguments.

Section VecProof.
Context {F : Type} {SF : Scalar F}.
Notation mem := (mem F).

(** ** C25 *)
Lemma k1_computes b n (g : F -> F) (a y : arg) (m : mem) :
  b = true -> n = a_len y -> a_len a = a_len y -> arg_ok m a -> arg_ok m y -> same_or_apart a y ->
  computes (mkKernel b n (map1 g (a_ptr a) (a_ptr y))) m y (fun i => g (el m a i)).
Proof.
  intros -> -> Hl Ha Hy Hs. unfold arg_ok in Ha. rewrite Hl in Ha.
  destruct (@map1_result F SF g (a_ptr a) (a_ptr y) (a_len y) m) as (m' & H1 & H2 & H3); auto.
  exists m'. unfold kernel_result, kernel_seq. cbn. auto.
Qed.

Lemma k2_computes b n (g : F -> F -> F) (a c y : arg) (m : mem) :
  b = true -> n = a_len y -> a_len a = a_len y -> a_len c = a_len y ->
  arg_ok m a -> arg_ok m c -> arg_ok m y -> same_or_apart a y -> same_or_apart c y ->
  computes (mkKernel b n (map2 g (a_ptr a) (a_ptr c) (a_ptr y))) m y (fun i => g (el m a i) (el m c i)).
Proof.
  intros -> -> Hl Hl' Ha Hc Hy Hs Hs'. unfold arg_ok in Ha, Hc. rewrite Hl in Ha. rewrite Hl' in Hc.
  destruct (@map2_result F SF g (a_ptr a) (a_ptr c) (a_ptr y) (a_len y) m) as (m' & H1 & H2 & H3); auto.
  exists m'. unfold kernel_result, kernel_seq. cbn. auto.
Qed.

Lemma same2_true x y : a_len x = a_len y -> same2 x y = true.
Proof. intros H. unfold same2. now apply Nat.eqb_eq. Qed.
Lemma same3_true x y z : a_len x = a_len z -> a_len y = a_len z -> same3 x y z = true.
Proof. intros H H'. unfold same3, same2. rewrite H, H', !Nat.eqb_refl. reflexivity. Qed.
Lemma same2_false x y : a_len x <> a_len y -> same2 x y = false.
Proof. intros H. unfold same2. now apply Nat.eqb_neq. Qed.
Lemma same3_false x y z : a_len x <> a_len y \/ a_len x <> a_len z -> same3 x y z = false.
Proof. intros [H|H]; unfold same3; rewrite (same2_false _ _ H); auto using andb_false_r. Qed.
Lemma self_apart (y : arg) : same_or_apart y y.
Proof. apply alias_refl. Qed.

(** ** C23 *)
Lemma st_get (m : mem) v i x : vec_set m v i x = st m (v_buf v, v_first v + i) x.
Proof. reflexivity. Qed.

Lemma holds_cell (m : mem) v l i : vec_holds m v l -> i < length l -> nth i (nth (v_buf v) m []) f0 = nth i l f0.
Proof.
  intros (H1 & H2 & H3 & H4 & H5 & H6 & H7) Hi. specialize (H7 i Hi).
  unfold vec_get, padd, v_data in H7. rewrite H2 in H7. cbn [fst snd Nat.add] in H7.
  rewrite ld_ok in H7 by (unfold valid; cbn; lia). unfold cell in H7. cbn [fst snd] in H7. congruence.
Qed.

Lemma holds_intro (m : mem) v l :
  v_own v = true -> v_first v = 0 -> v_buf v < length m -> v_alloc v = length (nth (v_buf v) m []) ->
  v_nnz v = length l -> v_nnz v <= v_alloc v ->
  (forall i, i < length l -> nth i (nth (v_buf v) m []) f0 = nth i l f0) -> vec_holds m v l.
Proof.
  intros H1 H2 H3 H4 H5 H6 H7. unfold vec_holds. do 6 (split; auto). intros i Hi.
  unfold vec_get, padd, v_data. rewrite H2. cbn [fst snd Nat.add].
  rewrite ld_ok by (unfold valid; cbn; lia). unfold cell. cbn [fst snd]. now rewrite H7.
Qed.

Lemma vec_resize_gen (m : mem) v N x :
  v_own v = true -> v_first v = 0 -> v_buf v < length m -> v_nnz v <= length (nth (v_buf v) m []) ->
  vec_resize m v N x = Ok (mfree m (v_buf v) ++
     [map (fun i => if i <? v_nnz v then nth i (nth (v_buf v) m []) f0 else x) (seq 0 N)],
     mkVec (length m) 0 N N true).
Proof.
  intros H1 H2 H3 H4. unfold vec_resize. rewrite H1, H2.
  set (b := nth (v_buf v) m []) in *.
  assert (E1 : for_ 0 (Nat.min (v_nnz v) N) (fun i t => y <- ld m (padd (v_data v) i) ;; wr t i y) (repeat f0 N)
    = for_ 0 (Nat.min (v_nnz v) N) (fun i t => y <- rd b i ;; wr t i y) (repeat f0 N)).
  { apply for_ext. intros i t Hi. rewrite ld_ok.
    - rewrite (@rd_lt _ b i f0) by lia. reflexivity.
    - unfold valid, v_data, padd. cbn. fold b. lia. }
  rewrite E1.
  destruct (@copy_loop F f0 (Nat.min (v_nnz v) N) 0 0 b (repeat f0 N)) as (t1 & G1 & L1 & N1);
    [rewrite repeat_length; lia|lia|].
  cbn [Nat.add] in G1. rewrite G1. cbn [bind].
  destruct (@fill_loop F f0 x (Nat.min (v_nnz v) N) N 0 t1) as (t2 & G2 & L2 & N2);
    [lia|rewrite L1, repeat_length; lia|].
  cbn [Nat.add] in G2. rewrite G2. cbn [bind]. unfold malloc, mfree. rewrite upd_length.
  rewrite repeat_length in L1.
  assert (Et : t2 = map (fun i => if i <? v_nnz v then nth i b f0 else x) (seq 0 N)).
  { apply (@list_ext F f0).
    - rewrite map_length, seq_length. lia.
    - intros i Hi. rewrite N2, N1, nth_map_seq by lia. cbn [Nat.add Nat.leb andb].
      rewrite ?Nat.sub_0_r.
      destruct (Nat.ltb_spec i (v_nnz v)), (Nat.leb_spec (Nat.min (v_nnz v) N) i),
        (Nat.ltb_spec i N), (Nat.ltb_spec i (Nat.min (v_nnz v) N)); cbn [andb]; try reflexivity; lia. }
  rewrite Et. reflexivity.
Qed.

Lemma nth_app_last {A} (m : list A) a d : nth (length m) (m ++ [a]) d = a.
Proof. rewrite app_nth2, Nat.sub_diag by lia. reflexivity. Qed.

Lemma others_free (m : mem) b x : others_kept m (mfree m b ++ x) b.
Proof.
  unfold others_kept, mfree. rewrite app_length, upd_length. split; [lia|]. intros c Hc Hn.
  rewrite app_nth1 by (rewrite upd_length; lia). apply nth_upd_other. auto.
Qed.

Lemma resize_holds (m : mem) v l N x : vec_holds m v l ->
  exists m' v', vec_resize m v N x = Ok (m', v') /\
    vec_holds m' v' (firstn N l ++ repeat x (N - length l)) /\ v_alloc v' = N /\
    others_kept m m' (v_buf v) /\ v_buf v' = length m /\ length m' = S (length m).
Proof.
  intros H. pose proof (@holds_cell m v l) as HC. pose proof H as (H1 & H2 & H3 & H4 & H5 & H6 & H7).
  rewrite vec_resize_gen by (auto; lia). do 2 eexists. split; [reflexivity|]. split; [|split; [reflexivity|split; [apply others_free|split; [reflexivity|]]]].
  - assert (HL : length (firstn N l ++ repeat x (N - length l)) = N)
      by (rewrite app_length, firstn_length, repeat_length; lia).
    apply holds_intro; cbn [v_own v_first v_buf v_alloc v_nnz]; auto.
    + rewrite app_length. unfold mfree. rewrite upd_length. cbn. lia.
    + replace (length m) with (length (mfree m (v_buf v))) by (unfold mfree; now rewrite upd_length).
      now rewrite nth_app_last, map_length, seq_length.
    + intros i Hi. rewrite HL in Hi.
      replace (length m) with (length (mfree m (v_buf v))) by (unfold mfree; now rewrite upd_length).
      rewrite nth_app_last, nth_map_seq by lia. cbn [Nat.add].
      destruct (Nat.ltb_spec i (v_nnz v)).
      * rewrite HC by (auto; lia). rewrite app_nth1 by (rewrite firstn_length; lia).
        now rewrite nth_firstn.
      * rewrite app_nth2 by (rewrite firstn_length; lia). rewrite nth_repeat; [reflexivity|].
        rewrite firstn_length. lia.
  - unfold mfree. rewrite app_length, upd_length. cbn. lia.
Qed.

Lemma set_holds (m : mem) v l i x : vec_holds m v l -> i < length l ->
  exists m', vec_set m v i x = Ok m' /\ vec_holds m' v (firstn i l ++ x :: skipn (S i) l) /\
    others_kept m m' (v_buf v) /\ length m' = length m.
Proof.
  intros H Hi. pose proof (@holds_cell m v l) as HC. pose proof H as (H1 & H2 & H3 & H4 & H5 & H6 & H7).
  rewrite st_get, H2, st_ok by (unfold valid; cbn; lia). cbn [Nat.add].
  eexists. split; [reflexivity|].
  assert (Hb : nth (v_buf v) (mset m (v_buf v, i) x) [] = upd (nth (v_buf v) m []) i x).
  { unfold mset. cbn [fst snd]. now rewrite nth_upd_same. }
  assert (Hlen : length (mset m (v_buf v, i) x) = length m) by (unfold mset; apply upd_length).
  split; [|split; auto].
  - rewrite <- upd_split by auto.
    apply holds_intro; auto; rewrite ?Hb, ?Hlen, ?upd_length; auto.
    intros k Hk. rewrite (nth_upd (nth (v_buf v) m [])), (nth_upd l).
    rewrite HC by auto. destruct (Nat.ltb_spec i (length l)); [|lia].
    destruct (Nat.ltb_spec i (length (nth (v_buf v) m []))); [|lia]. reflexivity.
  - split; [lia|]. intros c Hc Hn. unfold mset. cbn [fst snd]. apply nth_upd_other. auto.
Qed.

Lemma push_room (m : mem) v l x : vec_holds m v l -> v_nnz v < v_alloc v ->
  exists m', st m (padd (v_data v) (v_nnz v)) x = Ok m' /\
    vec_holds m' (mkVec (v_buf v) (v_first v) (v_nnz v + 1) (v_alloc v) (v_own v)) (l ++ [x]) /\
    others_kept m m' (v_buf v) /\ length m' = length m.
Proof.
  intros H Hlt. pose proof (@holds_cell m v l) as HC. pose proof H as (H1 & H2 & H3 & H4 & H5 & H6 & H7).
  unfold padd, v_data. cbn [fst snd Nat.add]. rewrite st_ok by (unfold valid; cbn; lia).
  eexists. split; [reflexivity|].
  assert (Hb : nth (v_buf v) (mset m (v_buf v, v_nnz v) x) [] = upd (nth (v_buf v) m []) (v_nnz v) x).
  { unfold mset. cbn [fst snd]. now rewrite nth_upd_same. }
  assert (Hlen : length (mset m (v_buf v, v_nnz v) x) = length m) by (unfold mset; apply upd_length).
  split; [|split; auto].
  - apply holds_intro; cbn [v_own v_first v_buf v_alloc v_nnz]; auto; rewrite ?Hb, ?Hlen, ?upd_length, ?app_length; cbn; auto; try lia.
    intros k Hk. destruct (Nat.eq_dec k (v_nnz v)) as [->|Hne].
    + rewrite nth_upd_same by lia. rewrite H5, nth_app_last. reflexivity.
    + rewrite nth_upd_other by auto. rewrite HC by (auto; lia). now rewrite app_nth1 by lia.
  - split; [lia|]. intros c Hc Hn. unfold mset. cbn [fst snd]. apply nth_upd_other. auto.
Qed.

Lemma push_holds (m : mem) v l x : vec_holds m v l ->
  exists m' v', vec_push_back m v x = Ok (m', v') /\ vec_holds m' v' (l ++ [x]) /\
    others_kept m m' (v_buf v) /\ (v_buf v' = v_buf v \/ v_buf v' = length m).
Proof.
  intros H. pose proof H as (H1 & H2 & H3 & H4 & H5 & H6 & H7).
  unfold vec_push_back. rewrite H1. destruct (Nat.leb_spec (v_alloc v) (v_nnz v)).
  - rewrite vec_resize_gen; cbn [v_own v_first v_buf v_alloc v_nnz]; auto; [|lia]. cbn [bind].
    set (m1 := mfree m (v_buf v) ++ _).
    cbn [v_own v_first v_buf v_alloc v_nnz].
    assert (Hf : length m = length (mfree m (v_buf v))) by (unfold mfree; now rewrite upd_length).
    assert (Hnew : nth (length m) m1 [] =
      map (fun i => if i <? v_nnz v then nth i (nth (v_buf v) m []) f0 else f0) (seq 0 (2 * v_alloc v + 1))).
    { unfold m1. rewrite Hf, nth_app_last. reflexivity. }
    assert (Hh : vec_holds m1 (mkVec (length m) 0 (v_nnz v) (2 * v_alloc v + 1) true) l).
    { apply holds_intro; cbn [v_own v_first v_buf v_alloc v_nnz]; auto; try lia.
      - unfold m1. rewrite app_length, <- Hf. cbn. lia.
      - rewrite Hnew, map_length, seq_length. lia.
      - intros i Hi. rewrite Hnew, nth_map_seq by lia. cbn [Nat.add].
        destruct (Nat.ltb_spec i (v_nnz v)); [|lia]. apply holds_cell; auto. }
    assert (HOO : others_kept m m1 (v_buf v)) by apply others_free. destruct HOO as [O1 O2]. clearbody m1.
    destruct (@push_room m1 _ l x Hh) as (m2 & E & HH & HO & HL); cbn [v_nnz v_alloc]; [lia|].
    unfold v_data, padd in *. cbn [v_own v_first v_buf v_alloc v_nnz fst snd Nat.add] in *.
    cbn [Nat.add Nat.mul] in *. rewrite E. cbn [bind].
    do 2 eexists. split; [reflexivity|]. split; [exact HH|]. split; [|auto].
    destruct HO as [P1 P2]. split; [lia|]. intros c Hc Hn.
    rewrite P2, O2; auto; lia.
  - cbn [bind]. destruct (@push_room m v l x H H0) as (m2 & E & HH & HO & HL).
    rewrite E. cbn [bind]. do 2 eexists. split; [reflexivity|]. split; [exact HH|]. auto.
Qed.

Lemma op_holds (m : mem) v l o l' : vec_holds m v l -> seq_op l o = Some l' ->
  exists m' v', vec_op (m, v) o = Ok (m', v') /\ vec_holds m' v' l' /\
    others_kept m m' (v_buf v) /\ (v_buf v' = v_buf v \/ v_buf v' = length m).
Proof.
  intros H E. destruct o as [x|n x|i x]; cbn [seq_op vec_op] in *.
  - injection E as <-. destruct (push_holds x H) as (m' & v' & A & B & C & D). exists m', v'. auto.
  - injection E as <-. destruct (resize_holds n x H) as (m' & v' & A & B & C & D & G & _). exists m', v'. auto.
  - destruct (Nat.ltb_spec i (length l)); [|discriminate]. injection E as <-.
    destruct (set_holds x H H0) as (m' & A & B & C & D). rewrite A. cbn [bind]. exists m', v. auto.
Qed.

Lemma ops_holds os : forall (m : mem) v l l', vec_holds m v l -> seq_ops l os = Some l' ->
  exists m' v', vec_ops (m, v) os = Ok (m', v') /\ vec_holds m' v' l' /\
    others_kept m m' (v_buf v).
Proof.
  induction os as [|o os IH]; intros m v l l' H E; cbn [seq_ops vec_ops] in *.
  - injection E as <-. exists m, v. split; auto. split; auto. split; auto.
  - destruct (seq_op l o) as [l1|] eqn:E1; [|discriminate].
    destruct (op_holds _ H E1) as (m1 & v1 & A & B & [C1 C2] & D). rewrite A. cbn [bind].
    destruct (IH _ _ _ _ B E) as (m' & v' & A' & B' & [C1' C2']).
    exists m', v'. split; auto. split; auto. split; [lia|]. intros c Hc Hn.
    rewrite C2', C2; auto; try lia.
Qed.

Lemma holds_empty (m : mem) : vec_holds (fst (vec_empty m)) (snd (vec_empty m)) [].
Proof.
  unfold vec_empty, malloc. cbn [fst snd].
  apply holds_intro; cbn [v_own v_first v_buf v_alloc v_nnz]; auto.
  - rewrite app_length. cbn. lia.
  - now rewrite nth_app_last.
  - cbn. intros. lia.
Qed.

(** constructors *)
Lemma vec_new_holds (m : mem) N :
  exists m' v, vec_new m N = Ok (m', v) /\ vec_holds m' v (repeat f0 N) /\
    (forall c, c < length m -> nth c m' [] = nth c m []) /\ length m < length m' /\ length m <= v_buf v.
Proof.
  unfold vec_new. pose proof (holds_empty m) as H. destruct (vec_empty m) as [m1 v] eqn:E.
  unfold vec_empty, malloc in E. injection E as <- <-. cbn [fst snd] in H.
  destruct (resize_holds N f0 H) as (m' & v' & A & B & C & [D1 D2] & G & L).
  exists m', v'. split; auto. cbn [length] in B. rewrite firstn_nil, Nat.sub_0_r in B.
  rewrite app_length in *. cbn [length] in *.
  split; auto. split; [|lia].
  intros c Hc. rewrite D2; cbn [v_buf]; try lia. now rewrite app_nth1.
Qed.

Lemma vec_of_list_holds (m : mem) l :
  exists m' v, vec_of_list m l = Ok (m', v) /\ vec_holds m' v l /\
    (forall c, c < length m -> nth c m' [] = nth c m []).
Proof.
  unfold vec_of_list. destruct (vec_new_holds m (length l)) as (m1 & v & E & H & K & K1 & K2).
  rewrite E. cbn [bind].
  destruct (@for0_inv mem (fun i m2 => length m2 = length m1 /\
     vec_holds m2 v (firstn i l ++ repeat f0 (length l - i)) /\
     (forall c, c < length m -> nth c m2 [] = nth c m [])) (length l)
     (fun i m => x <- rd l i ;; st m (padd (v_data v) i) x) m1) as (m2 & E2 & _ & H2 & K3).
  - rewrite Nat.sub_0_r. cbn [firstn app]. auto.
  - intros i m2 Hi (L & HH & HK). rewrite (@rd_lt _ l i f0 Hi). cbn [bind].
    destruct (@set_holds m2 v _ i (nth i l f0) HH) as (m3 & A & B & [C1 C2] & D).
    { rewrite app_length, firstn_length, repeat_length. lia. }
    rewrite st_get in A. destruct HH as (_ & F0 & _). rewrite F0 in A. cbn [Nat.add] in A.
    unfold padd, v_data. cbn [fst snd Nat.add]. rewrite A. eexists. split; [reflexivity|].
    split; [lia|]. split.
    + replace (firstn (S i) l ++ repeat f0 (length l - S i)) with
        (firstn i (firstn i l ++ repeat f0 (length l - i)) ++
         nth i l f0 :: skipn (S i) (firstn i l ++ repeat f0 (length l - i))); [exact B|].
      rewrite (@firstn_S_nth _ l i f0) by auto.
      assert (Hfl : length (firstn i l) = i) by (rewrite firstn_length; lia).
      rewrite firstn_app, Hfl, Nat.sub_diag, firstn_O, app_nil_r, firstn_firstn, Nat.min_id.
      rewrite skipn_app, Hfl, skipn_all2 by lia.
      replace (S i - i) with 1 by lia. replace (length l - i) with (S (length l - S i)) by lia.
      cbn [repeat skipn app]. now rewrite <- app_assoc.
    + intros c Hc. rewrite C2; auto; lia.
  - rewrite E2. cbn [bind]. exists m2, v. split; auto. rewrite firstn_all, Nat.sub_diag, app_nil_r in H2. auto.
Qed.


(** ** C24 *)
Lemma holds_window (m : mem) v l s n : vec_holds m v l -> s + n <= length l -> window m (v_buf v, s) n.
Proof.
  intros (H1 & H2 & H3 & H4 & H5 & H6 & H7) Hn i Hi. unfold valid, padd. cbn [fst snd]. lia.
Qed.

Lemma holds_el (m : mem) v l s i : vec_holds m v l -> s + i < length l ->
  cell m (padd (v_buf v, s) i) = nth (s + i) l f0.
Proof. intros H Hi. unfold cell, padd. cbn [fst snd]. eapply holds_cell; eauto. Qed.

Lemma shape_eq_kept (m m' : mem) y n f c : written m m' y n f -> c <> fst y -> nth c m' [] = nth c m [].
Proof.
  intros (HS & _ & HF) Hc. apply (@list_ext F f0).
  - symmetry. apply shape_length_nth. auto.
  - intros i Hi. specialize (HF (c, i)). unfold cell in HF. cbn [fst snd] in HF. apply HF.
    intros j _ E. unfold padd in E. congruence.
Qed.

Lemma written_holds (m m' : mem) v l s n f : vec_holds m v l -> s + n <= length l ->
  written m m' (v_buf v, s) n f ->
  vec_holds m' v (splice l s n f) /\ others_kept m m' (v_buf v).
Proof.
  intros H Hn HW. pose proof H as (H1 & H2 & H3 & H4 & H5 & H6 & H7).
  pose proof HW as (HS & HV & HF).
  split.
  - assert (HL : length (splice l s n f) = length l) by (unfold splice; now rewrite map_length, seq_length).
    apply holds_intro; auto; rewrite ?HL; auto.
    + rewrite <- (shape_length HS). auto.
    + rewrite <- (shape_length_nth _ HS). auto.
    + intros i Hi. unfold splice. rewrite nth_map_seq by lia. cbn [Nat.add].
      destruct (Nat.leb_spec s i); cbn [andb]; [destruct (Nat.ltb_spec i (s + n)); cbn [andb]|].
      * specialize (HV (i - s)). unfold cell, padd in HV. cbn [fst snd] in HV.
        replace (s + (i - s)) with i in HV by lia. apply HV. lia.
      * specialize (HF (v_buf v, i)). unfold cell in HF. cbn [fst snd] in HF. rewrite HF.
        -- eapply holds_cell; eauto.
        -- intros j Hj E. unfold padd in E. cbn in E. injection E as E. lia.
      * specialize (HF (v_buf v, i)). unfold cell in HF. cbn [fst snd] in HF. rewrite HF.
        -- eapply holds_cell; eauto.
        -- intros j Hj E. unfold padd in E. cbn in E. injection E as E. lia.
  - split; [rewrite (shape_length HS); auto|]. intros c Hc Hne. eapply shape_eq_kept; eauto.
Qed.

Lemma splice_full (l : list F) f : splice l 0 (length l) f = map f (seq 0 (length l)).
Proof.
  unfold splice. apply map_ext_in. intros i Hi. apply in_seq in Hi. cbn [Nat.leb andb Nat.add].
  destruct (Nat.ltb_spec i (length l)); [|lia]. now rewrite Nat.sub_0_r.
Qed.

Lemma splice_ext (l : list F) s n f g : (forall i, i < n -> f i = g i) -> splice l s n f = splice l s n g.
Proof.
  intros H. unfold splice. apply map_ext. intros i.
  destruct (Nat.leb_spec s i); cbn [andb]; auto. destruct (Nat.ltb_spec i (s + n)); auto. apply H. lia.
Qed.

Lemma written_ext (m m' : mem) y n f g : (forall i, i < n -> f i = g i) -> written m m' y n f -> written m m' y n g.
Proof. intros H (A & B & C). split; auto. split; auto. intros i Hi. rewrite <- H; auto. Qed.

Lemma computes_makes k (m : mem) y f v l : computes k m y f -> vec_holds m v l ->
  fst (a_ptr y) = v_buf v -> snd (a_ptr y) + a_len y <= length l ->
  makes k m v (splice l (snd (a_ptr y)) (a_len y) f).
Proof.
  intros (m' & H1 & H2 & H3) H E Hn. destruct (a_ptr y) as [b s] eqn:Ey. cbn [fst snd] in *. subst b.
  destruct (written_holds H Hn H3) as [A B]. exists m'. auto.
Qed.

Lemma view_fill_makes (m : mem) v l s n value : vec_holds m v l -> s + n <= length l ->
  makes (k_view_fill (view_new v s n) value) m v (splice l s n (fun _ => value)).
Proof.
  intros H Hn. unfold k_view_fill, view_new. cbn [w_last w_first w_data w_buf].
  destruct (@map0_result F SF value (v_buf v, s) n m) as (m' & A & B & C).
  { eapply holds_window; eauto. }
  replace (s + n - s) with n by lia.
  assert (Eb : (fun i => map0 value (w_data (mkView (v_buf v) s (s + n) n (v_nnz v))) (s + i)) = map0 value (v_buf v, s)).
  { reflexivity. }
  rewrite Eb. destruct (written_holds H Hn C) as [D E].
  exists m'. unfold kernel_result, kernel_seq. cbn [k_assert k_n k_body assert_ bind]. auto.
Qed.

Lemma two_holds_alias (m : mem) v x lx s n : vec_holds m x lx -> v_buf x <> v_buf v ->
  alias_ok (v_begin x) (v_buf v, s) n.
Proof.
  intros _ Hb. right. intros i j _ _ E. unfold padd, v_begin in E. cbn in E. congruence.
Qed.

Lemma view_assign_vec_makes (m : mem) v l x lx s : vec_holds m v l -> vec_holds m x lx ->
  v_buf x <> v_buf v -> s + length lx <= length l ->
  makes (k_view_assign_vec (view_new v s (length lx)) x) m v (splice l s (length lx) (fun i => nth i lx f0)).
Proof.
  intros H Hx Hb Hn. unfold k_view_assign_vec, view_new, w_begin. cbn [w_range w_buf w_first].
  assert (Ex : v_nnz x = length lx) by apply Hx. assert (F0 : v_first x = 0) by apply Hx.
  rewrite Ex, Nat.eqb_refl.
  destruct (@map1_result F SF (fun a => a) (v_begin x) (v_buf v, s) (length lx) m) as (m' & A & B & C).
  { unfold v_begin. rewrite F0. eapply holds_window; eauto. }
  { eapply holds_window; eauto. }
  { eapply two_holds_alias; eauto. }
  assert (C' : written m m' (v_buf v, s) (length lx) (fun i => nth i lx f0)).
  { eapply written_ext; [|exact C]. intros i Hi. cbn beta. unfold v_begin. rewrite F0.
    rewrite (holds_el 0 _ Hx) by auto. reflexivity. }
  destruct (written_holds H Hn C') as [D E].
  exists m'. unfold kernel_result, kernel_seq. cbn [k_assert k_n k_body assert_ bind]. auto.
Qed.

Lemma view_assign_view_makes (m : mem) v l x lx s n : vec_holds m v l -> vec_holds m x lx ->
  v_buf x <> v_buf v -> s + n <= length l -> n <= length lx ->
  makes (k_view_assign_view (view_new v s n) (view_new x 0 n)) m v (splice l s n (fun i => nth i lx f0)).
Proof.
  intros H Hx Hb Hn Hn'. unfold k_view_assign_view, view_new, w_begin. cbn [w_range w_buf w_first].
  rewrite Nat.eqb_refl. unfold padd at 1. cbn [fst snd Nat.add].
  destruct (@map1_result F SF (fun a => a) (v_buf x, 0) (v_buf v, s) n m) as (m' & A & B & C).
  { eapply holds_window; eauto. }
  { eapply holds_window; eauto. }
  { right. intros i j _ _ E. unfold padd in E. cbn in E. congruence. }
  assert (C' : written m m' (v_buf v, s) n (fun i => nth i lx f0)).
  { eapply written_ext; [|exact C]. intros i Hi. cbn beta.
    rewrite (holds_el 0 _ Hx) by lia. reflexivity. }
  destruct (written_holds H Hn C') as [D E].
  exists m'. unfold kernel_result, kernel_seq. cbn [k_assert k_n k_body assert_ bind]. auto.
Qed.

Lemma vec_fill_makes (m : mem) v l value : vec_holds m v l ->
  makes (k_vec_fill v value) m v (repeat value (length l)).
Proof.
  intros H. unfold k_vec_fill. assert (Ex : v_nnz v = length l) by apply H. assert (F0 : v_first v = 0) by apply H.
  unfold v_begin. rewrite F0, Ex.
  destruct (@map0_result F SF value (v_buf v, 0) (length l) m) as (m' & A & B & C).
  { eapply holds_window; eauto. }
  destruct (written_holds (s:=0) H (Nat.le_refl _) C) as [D E].
  exists m'. unfold kernel_result, kernel_seq. cbn [k_assert k_n k_body assert_ bind].
  replace (repeat value (length l)) with (splice l 0 (length l) (fun _ => value)); [auto|].
  rewrite splice_full. clear. generalize (length l). intros n.
  apply (@list_ext F value); rewrite ?map_length, ?seq_length, ?repeat_length; auto.
  intros i Hi. now rewrite nth_map_seq, nth_repeat.
Qed.

Lemma vec_assign_makes (m : mem) v l x lx : vec_holds m v l -> vec_holds m x lx ->
  v_buf x <> v_buf v -> length lx = length l ->
  makes (k_vec_assign v (v_arg x)) m v lx.
Proof.
  intros H Hx Hb Hn. unfold k_vec_assign, v_arg. cbn [a_len a_ptr].
  assert (Ev : v_nnz v = length l) by apply H. assert (Ex : v_nnz x = length lx) by apply Hx.
  assert (F0 : v_first x = 0) by apply Hx. assert (F1 : v_first v = 0) by apply H.
  rewrite Ev, Ex, Hn, Nat.eqb_refl.
  destruct (@map1_result F SF (fun a => a) (v_begin x) (v_buf v, 0) (length l) m) as (m' & A & B & C).
  { unfold v_begin. rewrite F0. eapply holds_window; eauto. lia. }
  { eapply holds_window; eauto. }
  { eapply two_holds_alias; eauto. }
  assert (C' : written m m' (v_buf v, 0) (length l) (fun i => nth i lx f0)).
  { eapply written_ext; [|exact C]. intros i Hi. cbn beta. unfold v_begin. rewrite F0.
    rewrite (holds_el 0 _ Hx) by lia. reflexivity. }
  destruct (written_holds (s:=0) H (Nat.le_refl _) C') as [D E].
  exists m'. unfold kernel_result, kernel_seq, v_begin. rewrite F1. unfold v_begin in A, B.
  cbn [k_assert k_n k_body assert_ bind]. split; auto. split; auto. split; auto.
  rewrite splice_full, <- Hn, <- (@list_as_map_seq F lx f0) in D. auto.
Qed.

(** copying into a newly constructed vector *)
Lemma vec_copy_gen (m : mem) b s lx v x : vec_holds m x lx -> v_buf x = b -> s + v_nnz v <= length lx ->
  exists m' w, ('(m1, w) <- vec_new m (v_nnz v) ;;
     m2 <- seq_for (v_nnz v) (map1 (fun a => a) (b, s) (v_data w)) m1 ;; Ok (m2, w)) = Ok (m', w) /\
    vec_holds m' w (map (fun i => nth (s + i) lx f0) (seq 0 (v_nnz v))) /\
    (forall c, c < length m -> nth c m' [] = nth c m []) /\ length m <= v_buf w /\ length m <= length m'.
Proof.
  intros Hx Hb Hs. destruct (vec_new_holds m (v_nnz v)) as (m1 & w & E & H & K & K1 & K2).
  rewrite E. cbn [bind].
  assert (Hxb : v_buf x < length m) by apply Hx.
  assert (Hx1 : vec_holds m1 x lx).
  { pose proof Hx as (X1 & X2 & X3 & X4 & X5 & X6 & X7). apply holds_intro; auto; rewrite ?K; auto; try lia.
    intros i Hi. eapply holds_cell; eauto. }
  set (N := v_nnz v) in *.
  destruct (@map1_result F SF (fun a => a) (b, s) (v_data w) N m1) as (m2 & _ & B & C).
  { subst b. eapply holds_window; eauto. }
  { unfold v_data. eapply holds_window; [exact H|]. rewrite repeat_length. lia. }
  { right. intros i j _ _ E'. unfold padd, v_data in E'. cbn in E'. injection E' as E' _. lia. }
  rewrite B. cbn [bind]. exists m2, w. split; auto.
  assert (C' : written m1 m2 (v_buf w, 0) N (fun i => nth (s + i) lx f0)).
  { eapply written_ext; [|exact C]. intros i Hi. cbn beta. subst b. rewrite (holds_el s _ Hx1) by lia. reflexivity. }
  assert (HN : 0 + N <= length (repeat (f0 (Scalar:=SF)) N)) by (rewrite repeat_length; lia).
  destruct (written_holds H HN C') as [D G].
  
  replace (splice (repeat f0 N) 0 N (fun i => nth (s + i) lx f0)) with (map (fun i => nth (s + i) lx f0) (seq 0 N)) in D.
  2:{ rewrite <- (repeat_length (f0 (Scalar:=SF)) N) at 1. rewrite <- splice_full, repeat_length. reflexivity. }
  destruct G as [G0 G]. split; auto. split; [|lia]. intros c Hc. rewrite G; auto; lia.
Qed.

Lemma vec_copy_holds (m : mem) x lx : vec_holds m x lx ->
  exists m' w, vec_copy m x = Ok (m', w) /\ vec_holds m' w lx /\
    (forall c, c < length m -> nth c m' [] = nth c m []) /\ v_buf w <> v_buf x /\ length m <= length m'.
Proof.
  intros Hx. assert (Ex : v_nnz x = length lx) by apply Hx. assert (Hb : v_buf x < length m) by apply Hx.
  destruct (@vec_copy_gen m (v_buf x) 0 lx x x) as (m' & w & A & B & C & D & D'); auto; [lia|].
  exists m', w. split; [exact A|]. cbn [Nat.add] in B. rewrite Ex, <- (@list_as_map_seq F lx f0) in B.
  split; auto. split; auto. lia.
Qed.

Lemma vec_of_view_holds (m : mem) x lx s n : vec_holds m x lx -> s + n <= length lx ->
  exists m' w, vec_of_view m (view_new x s n) = Ok (m', w) /\
    vec_holds m' w (firstn n (skipn s lx)) /\
    (forall c, c < length m -> nth c m' [] = nth c m []) /\ v_buf w <> v_buf x.
Proof.
  intros Hx Hn. assert (Hb : v_buf x < length m) by apply Hx.
  destruct (@vec_copy_gen m (v_buf x) s lx (mkVec 0 0 n 0 true) x) as (m' & w & A & B & C & D & D'); auto.
  exists m', w. unfold vec_of_view, view_new. cbn [w_range w_data w_buf w_first v_nnz] in *.
  unfold padd. cbn [fst snd Nat.add]. split; [exact A|]. split; [|split; auto; lia].
  replace (firstn n (skipn s lx)) with (map (fun i => nth (s + i) lx f0) (seq 0 n)); auto.
  apply (@list_ext F f0); rewrite ?map_length, ?seq_length, ?firstn_length, ?skipn_length; [lia|].
  intros i Hi. rewrite nth_map_seq by lia. rewrite nth_firstn, nth_skipn by lia. reflexivity.
Qed.

Lemma view_assign_list_holds (m : mem) v l s n vals : vec_holds m v l -> s + length vals <= length l ->
  exists m', view_assign_list m (view_new v s n) vals = Ok (m', view_new v s (length vals)) /\
    vec_holds m' v (splice l s (length vals) (fun i => nth i vals f0)) /\ others_kept m m' (v_buf v).
Proof.
  intros H Hn. assert (Ev : v_nnz v = length l) by apply H.
  unfold view_assign_list, view_resize, view_new. cbn [w_first w_tnnz w_buf].
  rewrite Ev. destruct (Nat.leb_spec (s + length vals) (length l)); [|lia]. cbn [assert_ bind].
  unfold w_begin. cbn [w_buf w_first].
  destruct (@for0_inv mem (fun i m2 => vec_holds m2 v (splice l s i (fun i => nth i vals f0)) /\
     others_kept m m2 (v_buf v) /\ length m2 = length m) (length vals)
     (fun i m => x <- rd vals i ;; st m (padd (v_buf v, s) i) x) m) as (m2 & E2 & H2 & K2 & _).
  - replace (splice l s 0 (fun i => nth i vals f0)) with l.
    + split; auto. split; auto. split; auto.
    + unfold splice. rewrite (@list_as_map_seq F l f0) at 1. apply map_ext. intros i.
      destruct (Nat.leb_spec s i); cbn [andb]; auto. destruct (Nat.ltb_spec i (s + 0)); auto; lia.
  - intros i m2 Hi (HH & [HK1 HK2] & HL). rewrite (@rd_lt _ vals i f0 Hi). cbn [bind].
    assert (HSL : forall k, length (splice l s k (fun i => nth i vals f0)) = length l)
      by (intros; unfold splice; now rewrite map_length, seq_length).
    destruct (@set_holds m2 v _ (s + i) (nth i vals f0) HH) as (m3 & A & B & [C1 C2] & D).
    { rewrite HSL. lia. }
    rewrite st_get in A. assert (F0 : v_first v = 0) by apply H. rewrite F0 in A. cbn [Nat.add] in A.
    unfold padd. cbn [fst snd]. rewrite A. eexists. split; [reflexivity|]. split; [|split; [|lia]].
    + rewrite <- upd_split in B by (rewrite HSL; lia).
      replace (splice l s (S i) (fun i => nth i vals f0)) with (upd (splice l s i (fun i => nth i vals f0)) (s + i) (nth i vals f0)); auto.
      apply (@list_ext F f0); rewrite ?upd_length, ?HSL; auto.
      intros k Hk. rewrite nth_upd, HSL. unfold splice. rewrite !nth_map_seq by lia. cbn [Nat.add].
      destruct (Nat.ltb_spec (s + i) (length l)); [|lia]. rewrite ?andb_true_r.
      destruct (Nat.eqb_spec (s + i) k) as [<-|Hne].
      * destruct (Nat.leb_spec s (s + i)); [|lia]. destruct (Nat.ltb_spec (s + i) (s + S i)); [|lia].
        cbn [andb]. f_equal. lia.
      * destruct (Nat.leb_spec s k); cbn [andb]; auto.
        destruct (Nat.ltb_spec k (s + i)), (Nat.ltb_spec k (s + S i)); auto; lia.
    + split; [lia|]. intros c Hc Hne. rewrite C2, HK2; auto; lia.
  - rewrite E2. cbn [bind]. exists m2. auto.
Qed.

(** ** equal *)
Lemma vec_equal_spec (m : mem) x y : arg_ok m x -> arg_ok m y -> exists b, vec_equal m x y = Ok b /\
  (b = true <-> a_len x = a_len y /\ forall i, i < a_len x -> feqb (el m y i) (el m x i) = true).
Proof.
  intros Hx Hy. unfold vec_equal. destruct (Nat.eqb_spec (a_len x) (a_len y)) as [He|Hne]; cbn [negb].
  - destruct (@for0_inv bool (fun i b => b = true <-> forall k, k < i -> feqb (el m y k) (el m x k) = true) (a_len x)
      (fun i ans => p <- ld m (padd (a_ptr y) i) ;; q <- ld m (padd (a_ptr x) i) ;;
         Ok (if negb (feqb p q) then false else ans)) true) as (b & E & Hb).
    + split; intros; auto; lia.
    + intros i b Hi Hb. rewrite ld_ok by (apply Hy; lia). cbn [bind]. rewrite ld_ok by (apply Hx; lia). cbn [bind].
      eexists. split; [reflexivity|]. change (cell m (padd (a_ptr y) i)) with (el m y i).
      change (cell m (padd (a_ptr x) i)) with (el m x i).
      destruct (feqb (el m y i) (el m x i)) eqn:Ef; cbn [negb].
      * rewrite Hb. split; intros H k Hk; [|apply H; lia].
        destruct (Nat.eq_dec k i) as [->|]; auto. apply H. lia.
      * split; [discriminate|]. intros H. rewrite H in Ef by lia. discriminate.
    + rewrite E. exists b. split; auto. rewrite Hb. tauto.
  - exists false. split; auto. split; [discriminate|]. intros [? _]. lia.
Qed.

End VecProof.

Section Alo.
Context {F : Type} {SF : Scalar F} (Hex : exact SF).
Local Open Scope F_scope.
Let Hrt : ring_theory f0 f1 fadd fmul fsub fopp (@eq F) := Hex.
Add Ring FringAlo : Hrt.
Lemma alo_exact (alpha beta x : F) :
  alpha * x + (beta - alpha) * fmin x 0 = if fltb 0 x then alpha * x else beta * x.
Proof. unfold fmin. destruct (fltb 0 x); ring. Qed.
End Alo.
