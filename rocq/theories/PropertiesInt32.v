(** * PropertiesInt32: C110, sizes beyond 2^31. *)
From Coq Require Import ZArith Floats.SpecFloat.
From Verif Require Import Base Scalar Spec Mem MemSpec KernelProof VecModel VecSpec VecProof ReduceModel ReduceSpec ReduceProof
  PropertiesVec PropertiesReduce DenseModel Observe CrsModel CrsObserve CrsSimProof CrsMiscProof TensorModel TensorBlasModel PropertiesCrs
  Int32Model Int32Spec.
Set Implicit Arguments.
Local Open Scope nat_scope.

(** every length has exactly one number of processed elements, at most the length; it is the length
    exactly when that fits an int *)
Lemma reached_blas n : reached n (blas_n n).
Proof.
  unfold reached, blas_n, int_of. exists (Z.of_nat n / 2 ^ 32)%Z, (Z.of_nat n mod 2 ^ 32)%Z.
  pose proof (Z.div_mod (Z.of_nat n) (2 ^ 32) ltac:(lia)) as D.
  pose proof (Z.mod_pos_bound (Z.of_nat n) (2 ^ 32) ltac:(lia)) as B.
  set (q := (Z.of_nat n / 2 ^ 32)%Z) in *. set (s := (Z.of_nat n mod 2 ^ 32)%Z) in *.
  split; [split; [exact D|exact B]|].
  destruct (Z_lt_le_dec s (2 ^ 31)) as [L|L].
  - left. split; auto.
    replace ((Z.of_nat n + 2 ^ 31) mod 2 ^ 32)%Z with (s + 2 ^ 31)%Z; [lia|].
    apply Z.mod_unique with q; lia.
  - right. split; auto.
    replace ((Z.of_nat n + 2 ^ 31) mod 2 ^ 32)%Z with (s + 2 ^ 31 - 2 ^ 32)%Z; [lia|].
    apply Z.mod_unique with (q + 1)%Z; lia.
Qed.
Lemma reached_fun n r r' : reached n r -> reached n r' -> r = r'.
Proof.
  intros (q & s & (E & B) & H) (q' & s' & (E' & B') & H').
  assert (q = q') by nia. assert (s = s') by lia. subst. lia.
Qed.
Lemma reached_eq n r : reached n r -> blas_n n = r.
Proof. intros H. eapply reached_fun; [apply reached_blas|exact H]. Qed.
Theorem C110_reached (n : nat) :
  (exists r, reached n r) /\ (forall r r', reached n r -> reached n r' -> r = r') /\
  (forall r, reached n r -> r <= n /\ (r = n <-> fits31 n) /\ (Z.of_nat r < 2 ^ 31)%Z).
Proof.
  split; [exists (blas_n n); apply reached_blas|]. split; [intros; eapply reached_fun; eauto|].
  intros r (q & s & (E & B) & H). unfold fits31.
  assert (Hq : (0 <= q)%Z) by lia. split; [lia|]. split; [|lia]. split; intros G; lia.
Qed.
Print Assumptions C110_reached.

Section Vec.
Context {F : Type} {SF : Scalar F}.
Notation mem := (Mem.mem F).
Notation kernel := (VecModel.kernel (F := F)).

Lemma first_ok (m : mem) x r : arg_ok m x -> r <= a_len x -> arg_ok m (first_of x r).
Proof. intros H L i Hi. apply H. cbn in Hi. lia. Qed.
Lemma first_apart x y r r' : same_or_apart x y -> r' <= a_len y -> same_or_apart (first_of x r) (first_of y r').
Proof. intros [H|H] L; [left; exact H|right]. intros i j Hi Hj. cbn in *. apply H; lia. Qed.

Lemma written_le (m m' : mem) y r f : written m m' y r f -> forall i, r <= i -> cell m' (padd y i) = cell m (padd y i).
Proof.
  intros (_ & _ & H) i Hi. apply H. intros j Hj E. unfold padd in E. inversion E. lia.
Qed.

(** axpy, scal, copy, vector = vector: the first [r] elements are computed, the rest of y is left as it was *)
Theorem C110_blas1_partial (alpha : F) (x y : arg) (m : mem) (r : nat) :
  reached (a_len x) r -> arg_ok m x -> arg_ok m y -> a_len x = a_len y -> same_or_apart x y ->
  computes (k_axpy32 alpha x y) m (first_of y r) (fun i => fadd (el m y i) (fmul alpha (el m x i))) /\
  computes (k_scal32 alpha x) m (first_of x r) (fun i => fmul alpha (el m x i)) /\
  computes (k_copy32 x y) m (first_of y r) (fun i => el m x i).
Proof.
  intros R Hx Hy He Ha. pose proof (reached_eq R) as Hr. destruct (C110_reached (a_len x)) as (_ & _ & Q).
  destruct (Q r R) as (Lr & _ & _).
  pose proof (first_ok Hx Lr) as Fx. assert (Fy : arg_ok m (first_of y r)) by (apply first_ok; auto; lia).
  assert (Fa : same_or_apart (first_of x r) (first_of y r)) by (apply first_apart; auto; lia).
  split; [|split].
  - pose proof (@C25_axpy F SF alpha (first_of x r) (first_of y r) m) as H.
    unfold k_axpy32. rewrite Hr, (same2_true _ _ He).
    unfold k_axpy in H. rewrite (@same2_true (first_of x r) (first_of y r) eq_refl) in H. apply H; auto.
  - pose proof (@C25_scal F SF alpha (first_of x r) m) as H.
    unfold k_scal32. rewrite Hr. apply H; auto.
  - pose proof (@C25_copy F SF (first_of x r) (first_of y r) m) as H.
    unfold k_copy32. rewrite <- He, Hr, (same2_true _ _ He).
    unfold k_copy in H. rewrite (@same2_true (first_of x r) (first_of y r) eq_refl) in H. apply H; auto.
Qed.

(** when the length fits an int, the calls are those of C25, C26 and C45 *)
Theorem C110_small (alpha : F) (x y : arg) (v : vec) (m : mem) :
  fits31 (a_len x) ->
  k_axpy32 alpha x y = k_axpy alpha x y /\ k_scal32 alpha x = k_scal alpha x /\
  (a_len x = a_len y -> k_copy32 x y = k_copy x y :> kernel) /\ k_vec_assign32 v x = k_vec_assign v x :> kernel /\
  (v_nnz v = a_len x -> vec_copy32 m v = vec_copy m v) /\
  r_dot32 x y = r_dot x y :> reduction (F := F) /\ r_asum32 x = r_asum x :> reduction (F := F) /\
  r_nrm2_32 x = r_nrm2 x :> reduction (F := F).
Proof.
  intros Hf. assert (E : blas_n (a_len x) = a_len x).
  { destruct (C110_reached (a_len x)) as (_ & _ & Q). apply (Q _ (reached_blas _)). exact Hf. }
  unfold k_axpy32, k_scal32, k_copy32, k_vec_assign32, vec_copy32, r_dot32, r_asum32, r_nrm2_32. rewrite !E.
  repeat split; auto.
  - intros H. rewrite <- H, E. unfold k_copy. now rewrite <- H.
  - intros H. rewrite H, E. unfold vec_copy. now rewrite H.
Qed.

(** dot, asum, nrm2: of the first [r] elements only *)
Theorem C110_reductions_partial (x y : arg) (m : mem) (r : nat) :
  exact SF -> reached (a_len x) r -> arg_ok m x -> arg_ok m y -> a_len x = a_len y ->
  returns (r_dot32 x y) m (dotp r (el m x) (el m y)) /\
  returns (r_asum32 x) m (sum_n r (fun i => fabs (el m x i))) /\
  returns (r_nrm2_32 x) m (fsqrt (sum_n r (fun i => fmul (el m x i) (el m x i)))).
Proof.
  intros Hex R Hx Hy He. pose proof (reached_eq R) as Hr. destruct (C110_reached (a_len x)) as (_ & _ & Q).
  destruct (Q r R) as (Lr & _ & _).
  pose proof (first_ok Hx Lr) as Fx. assert (Fy : arg_ok m (first_of y r)) by (apply first_ok; auto; lia).
  unfold r_dot32, r_asum32, r_nrm2_32. rewrite Hr, (same2_true _ _ He).
  split; [|split].
  - pose proof (@C26_dot F SF m (first_of x r) (first_of y r) Hex Fx Fy eq_refl) as H.
    unfold r_dot in H. rewrite (@same2_true (first_of x r) (first_of y r) eq_refl) in H. exact H.
  - exact (proj2 (@C26_nrm1_asum F SF m (first_of x r) Hex Fx)).
  - exact (@C26_nrm2 F SF m (first_of x r) Hex Fx).
Qed.

(** the copy constructor: the first [r] elements are copied, the others are 0; assignment: the others keep
    their old values *)
Theorem C110_copies_partial (m : mem) (x v : vec) (lx l : list F) (r : nat) :
  vec_holds m x lx -> reached (length lx) r ->
  (exists m' w, vec_copy32 m x = Ok (m', w) /\ vec_holds m' w (firstn r lx ++ repeat f0 (length lx - r)) /\
     forall c, c < length m -> nth c m' [] = nth c m []) /\
  (vec_holds m v l -> v_buf x <> v_buf v -> length lx = length l ->
   makes (k_vec_assign32 v (v_arg x)) m v (firstn r lx ++ skipn r l)).
Proof.
  intros Hx R. pose proof (reached_eq R) as Hr. destruct (C110_reached (length lx)) as (_ & _ & Q).
  destruct (Q r R) as (Lr & _ & _). clear Q.
  assert (Ex : v_nnz x = length lx) by apply Hx. assert (F0 : v_first x = 0) by apply Hx. split.
  - unfold vec_copy32. rewrite Ex, Hr.
    destruct (vec_new_holds m (length lx)) as (m1 & w & E & H & K & K1 & K2). rewrite E. cbn [bind].
    assert (Hxb : v_buf x < length m) by apply Hx.
    assert (Hx1 : vec_holds m1 x lx).
    { pose proof Hx as (X1 & X2 & X3 & X4 & X5 & X6 & X7). apply holds_intro; auto; rewrite ?K; auto; try lia.
      intros i Hi. eapply holds_cell; eauto. }
    destruct (@map1_result F SF (fun a => a) (v_data x) (v_data w) r m1) as (m2 & _ & B & C).
    { unfold v_data. eapply holds_window; eauto. }
    { unfold v_data. eapply holds_window; [exact H|]. rewrite repeat_length. lia. }
    { right. intros i j _ _ E'. unfold padd, v_data in E'. cbn in E'. injection E' as E' _. lia. }
    rewrite B. cbn [bind]. exists m2, w. split; auto.
    assert (C' : written m1 m2 (v_buf w, 0) r (fun i => nth i lx f0)).
    { eapply written_ext; [|exact C]. intros i Hi. cbn beta. unfold v_data. rewrite (holds_el 0 _ Hx1) by lia. reflexivity. }
    assert (HN : 0 + r <= length (repeat (f0 (Scalar:=SF)) (length lx))) by (rewrite repeat_length; lia).
    destruct (written_holds H HN C') as [D G]. split.
    + replace (firstn r lx ++ repeat f0 (length lx - r)) with (splice (repeat f0 (length lx)) 0 r (fun i => nth i lx f0)); auto.
      unfold splice. rewrite repeat_length. apply (@list_ext F f0).
      * rewrite map_length, seq_length, app_length, firstn_length, repeat_length. lia.
      * rewrite map_length, seq_length. intros i Hi. rewrite nth_map_seq by auto. cbn [Nat.leb andb Nat.add].
        destruct (Nat.ltb_spec i r).
        -- rewrite app_nth1 by (rewrite firstn_length; lia). rewrite nth_firstn by lia. f_equal. lia.
        -- rewrite app_nth2; rewrite firstn_length; [|lia]. rewrite !List.nth_repeat. auto.
    + destruct G as [G0 G]. intros c Hc. rewrite G; auto; lia.
  - intros H Hb Hl. assert (Ev : v_nnz v = length l) by apply H. assert (F1 : v_first v = 0) by apply H.
    unfold k_vec_assign32, v_arg. cbn [a_len a_ptr]. rewrite Ev, Ex, Hr, Hl, Nat.eqb_refl.
    destruct (@map1_result F SF (fun a => a) (v_begin x) (v_buf v, 0) r m) as (m' & A & B & C).
    { unfold v_begin. rewrite F0. eapply holds_window; eauto. }
    { eapply holds_window; eauto. lia. }
    { eapply two_holds_alias; eauto. }
    assert (C' : written m m' (v_buf v, 0) r (fun i => nth i lx f0)).
    { eapply written_ext; [|exact C]. intros i Hi. cbn beta. unfold v_begin. rewrite F0.
      rewrite (holds_el 0 _ Hx) by lia. reflexivity. }
    assert (HN : 0 + r <= length l) by lia.
    destruct (written_holds H HN C') as [D E].
    exists m'. unfold kernel_result, kernel_seq, v_begin. rewrite F1. unfold v_begin in A, B.
    cbn [k_assert k_n k_body assert_ bind]. split; auto. split; auto. split; auto.
    replace (firstn r lx ++ skipn r l) with (splice l 0 r (fun i => nth i lx f0)); auto.
    unfold splice. apply (@list_ext F f0).
    * rewrite map_length, seq_length, app_length, firstn_length, skipn_length. lia.
    * rewrite map_length, seq_length. intros i Hi. rewrite nth_map_seq by auto. cbn [Nat.leb andb Nat.add].
      destruct (Nat.ltb_spec i r).
      -- rewrite app_nth1 by (rewrite firstn_length; lia). rewrite nth_firstn by lia. f_equal. lia.
      -- rewrite app_nth2; rewrite firstn_length; [|lia]. rewrite nth_skipn. f_equal. lia.
Qed.
End Vec.
Print Assumptions C110_blas1_partial.
Print Assumptions C110_small.
Print Assumptions C110_reductions_partial.
Print Assumptions C110_copies_partial.

(** ** the refutation: 2^31 elements *)
Lemma reached_large n : (2 ^ 31 <= Z.of_nat n < 2 ^ 32)%Z -> reached n 0.
Proof. intros H. exists 0%Z, (Z.of_nat n). split; [lia|]. right. lia. Qed.

(** a vector of 2^31 (to 2^32 - 1) elements: its copy is all zeros, copying or assigning it changes
    nothing, axpy and scal do nothing, dot / asum / nrm2 return those of the empty vector *)
Theorem C110_large_partial {F} {SF : Scalar F} (m : mem F) (x v : vec) (lx l : list F) (alpha : F) :
  vec_holds m x lx -> vec_holds m v l -> v_buf x <> v_buf v -> length lx = length l ->
  (2 ^ 31 <= Z.of_nat (length l) < 2 ^ 32)%Z ->
  (exists m' w, vec_copy32 m x = Ok (m', w) /\ vec_holds m' w (repeat f0 (length lx))) /\
  kernel_seq (k_vec_assign32 v (v_arg x)) m = Ok m /\ kernel_seq (k_copy32 (v_arg x) (v_arg v)) m = Ok m /\
  kernel_seq (k_axpy32 alpha (v_arg x) (v_arg v)) m = Ok m /\ kernel_seq (k_scal32 alpha (v_arg v)) m = Ok m /\
  (exact SF -> returns (r_dot32 (v_arg x) (v_arg v)) m f0 /\ returns (r_asum32 (v_arg x)) m f0 /\
     returns (r_nrm2_32 (v_arg x)) m (fsqrt f0)).
Proof.
  intros Hx Hv Hb Hl Hn. assert (Ex : v_nnz x = length lx) by apply Hx. assert (Ev : v_nnz v = length l) by apply Hv.
  pose proof (reached_large _ Hn) as R. pose proof (reached_eq R) as Hr.
  assert (Ax : arg_ok m (v_arg x)).
  { unfold arg_ok, v_arg, v_begin. cbn [a_ptr a_len]. assert (v_first x = 0) as -> by apply Hx.
    eapply holds_window; eauto. lia. }
  assert (Av : arg_ok m (v_arg v)).
  { unfold arg_ok, v_arg, v_begin. cbn [a_ptr a_len]. assert (v_first v = 0) as -> by apply Hv.
    eapply holds_window; eauto. lia. }
  assert (He : a_len (v_arg x) = a_len (v_arg v)) by (cbn; congruence).
  assert (Z0 : forall b, kernel_seq (mkKernel true 0 b) m = Ok m) by reflexivity.
  split; [|split; [|split; [|split; [|split; [|intros H; split; [|split]]]]]].
  - rewrite <- Hl in R. destruct (C110_copies_partial v l Hx R) as ((m' & w & E & H & _) & _).
    exists m', w. split; auto. cbn [firstn app] in H. now rewrite Nat.sub_0_r in H.
  - unfold k_vec_assign32, v_arg. cbn [a_len a_ptr]. rewrite Ev, Ex, Hl, Hr, Nat.eqb_refl. apply Z0.
  - unfold k_copy32. rewrite (same2_true _ _ He). unfold v_arg. cbn [a_len a_ptr]. rewrite Ev, Hr. apply Z0.
  - unfold k_axpy32. rewrite (same2_true _ _ He). unfold v_arg. cbn [a_len a_ptr]. rewrite Ex, Hl, Hr. apply Z0.
  - unfold k_scal32. unfold v_arg. cbn [a_len a_ptr]. rewrite Ev, Hr. apply Z0.
  - assert (R' : reached (a_len (v_arg x)) 0) by (cbn; now rewrite Ex, Hl).
    apply (C110_reductions_partial H R' Ax Av He).
  - assert (R' : reached (a_len (v_arg x)) 0) by (cbn; now rewrite Ex, Hl).
    apply (C110_reductions_partial H R' Ax Av He).
  - assert (R' : reached (a_len (v_arg x)) 0) by (cbn; now rewrite Ex, Hl).
    apply (C110_reductions_partial H R' Ax Av He).
Qed.
Print Assumptions C110_large_partial.

(** two vectors of 2^31 ones exist; their dot product 2^31 comes out as 0, and a copy is not equal to its
    source *)
Theorem C110_large_refuted : exists (m m' : mem Z) (x v w : vec) (l : list Z),
  Z.of_nat (length l) = (2 ^ 31)%Z /\ (forall i, i < length l -> nth i l 0%Z = 1%Z) /\
  vec_holds m x l /\ vec_holds m v l /\
  returns (r_dot32 (v_arg x) (v_arg v)) m 0%Z /\ dotp (length l) (fun i => nth i l 0%Z) (fun i => nth i l 0%Z) = (2 ^ 31)%Z /\
  vec_copy32 m x = Ok (m', w) /\ vec_get m' w 0 = Ok 0%Z /\ vec_get m x 0 = Ok 1%Z.
Proof.
  set (n := Z.to_nat (2 ^ 31)). assert (Hn : Z.of_nat n = (2 ^ 31)%Z) by (unfold n; lia).
  set (l := repeat 1%Z n). assert (Ll : length l = n) by apply repeat_length.
  assert (H1 : forall i, i < n -> nth i l 0%Z = 1%Z) by (intros i Hi; unfold l; now rewrite nth_repeat).
  clearbody n l.
  set (m := [l; l]). set (x := mkVec 0 0 n n true). set (v := mkVec 1 0 n n true).
  assert (Hx : vec_holds m x l).
  { apply holds_intro; unfold m, x; cbn [v_own v_first v_buf v_alloc v_nnz length nth]; auto; lia. }
  assert (Hv : vec_holds m v l).
  { apply holds_intro; unfold m, v; cbn [v_own v_first v_buf v_alloc v_nnz length nth]; auto; lia. }
  destruct (@C110_large_partial Z Zscalar m x v l l 0%Z Hx Hv ltac:(cbn; lia) eq_refl ltac:(lia))
    as ((m' & w & E & Hw) & _ & _ & _ & _ & R).
  exists m, m', x, v, w, l. split; [lia|]. split; [rewrite Ll; exact H1|]. split; auto. split; auto.
  split; [apply R; apply Z_exact|]. split.
  - rewrite Ll, <- Hn. unfold dotp.
    assert (G : forall k, k <= n -> sum_n k (fun i => @fmul Z Zscalar (nth i l 0%Z) (nth i l 0%Z)) = Z.of_nat k).
    { induction k; intros Hk; [reflexivity|]. cbn [sum_n]. rewrite IHk, H1 by lia. cbn -[Z.of_nat]. lia. }
    apply G. lia.
  - split; auto. destruct Hw as (_ & _ & _ & _ & _ & _ & Hw). destruct Hx as (_ & _ & _ & _ & _ & _ & Hx).
    split.
    + rewrite Hw by (rewrite repeat_length; lia). now rewrite List.nth_repeat.
    + rewrite Hx by lia. now rewrite H1 by lia.
Qed.
Print Assumptions C110_large_refuted.

(** ** CRS * Dense *)
Section Matmul.
Context {F : Type} {SF : Scalar F}.

Lemma for_ok_inv {S} (body : nat -> S -> res S) lo hi s s' : for_ lo hi body s = Ok s' ->
  forall i, lo <= i < hi -> exists s1 s2, body i s1 = Ok s2.
Proof.
  unfold for_. intros H i Hi.
  assert (G : forall n lo s, iter_ n lo body s = Ok s' -> lo <= i < lo + n -> exists s1 s2, body i s1 = Ok s2).
  { clear. induction n as [|n IH]; intros lo s H Hi; [lia|]. cbn in H. apply bind_ok in H. destruct H as (s1 & E & H).
    destruct (Nat.eq_dec lo i) as [->|]; [eauto|]. eapply IH; eauto. lia. }
  eapply G; eauto. lia.
Qed.
Lemma rd_inv {A} (l : list A) i a d : rd l i = Ok a -> i < length l /\ nth i l d = a.
Proof.
  intros H. destruct (Nat.lt_ge_cases i (length l)) as [L|L].
  - split; auto. rewrite (@rd_lt A l i d L) in H. congruence.
  - unfold rd in H. rewrite (proj2 (nth_error_None l i)) in H by auto. discriminate.
Qed.
Lemma int_of_id n : fits31 n -> int_of n = Z.of_nat n.
Proof. unfold fits31, int_of. intros H. rewrite Z.mod_small; lia. Qed.
Lemma int_mul_ok a b : (- 2 ^ 31 <= a * b < 2 ^ 31)%Z -> int_mul a b = Ok (a * b)%Z.
Proof. intros H. unfold int_mul. destruct (Z.leb_spec (- 2 ^ 31) (a * b)); [|lia]. destruct (Z.ltb_spec (a * b) (2 ^ 31)); [|lia]. reflexivity. Qed.
Lemma int_add_ok a b : (- 2 ^ 31 <= a + b < 2 ^ 31)%Z -> int_add a b = Ok (a + b)%Z.
Proof. intros H. unfold int_add. destruct (Z.leb_spec (- 2 ^ 31) (a + b)); [|lia]. destruct (Z.ltb_spec (a + b) (2 ^ 31)); [|lia]. reflexivity. Qed.
Lemma int_sub_ok a b : (- 2 ^ 31 <= a - b < 2 ^ 31)%Z -> int_sub a b = Ok (a - b)%Z.
Proof. intros H. unfold int_sub. destruct (Z.leb_spec (- 2 ^ 31) (a - b)); [|lia]. destruct (Z.ltb_spec (a - b) (2 ^ 31)); [|lia]. reflexivity. Qed.
Lemma int_mul_inv a b c : int_mul a b = Ok c -> c = (a * b)%Z /\ (a * b < 2 ^ 31)%Z.
Proof.
  unfold int_mul. destruct (Z.leb_spec (- 2 ^ 31) (a * b)); cbn [andb]; [|discriminate].
  destruct (Z.ltb_spec (a * b) (2 ^ 31)); [|discriminate]. intros [= <-]. auto.
Qed.
Lemma int_add_inv a b c : int_add a b = Ok c -> c = (a + b)%Z /\ (a + b < 2 ^ 31)%Z.
Proof.
  unfold int_add. destruct (Z.leb_spec (- 2 ^ 31) (a + b)); cbn [andb]; [|discriminate].
  destruct (Z.ltb_spec (a + b) (2 ^ 31)); [|discriminate]. intros [= <-]. auto.
Qed.

(** a column index read in row i belongs to an entry of that row *)
Lemma row_in (A : crs F) i lo hi k c : rd (m_rp A) i = Ok lo -> rd (m_rp A) (i + 1) = Ok hi -> lo <= k < hi ->
  rd (m_ci A) k = Ok c -> In (c, vln A k) (crs_row A i).
Proof.
  intros H1 H2 Hk H3. apply (@rd_inv _ _ _ _ 0) in H1. apply (@rd_inv _ _ _ _ 0) in H2. apply (@rd_inv _ _ _ _ 0) in H3.
  unfold crs_row. apply in_map_iff. exists k. unfold cin, rpn. split; [f_equal; apply H3|].
  apply in_seq. lia.
Qed.

Lemma scalar32_eq (a : F) (A : crs F) (B : dense F) (b : F) (C : dense F) :
  fits31 (m_row A) -> fits31 (d_col B) -> subscripts_fit A (d_col B) ->
  matmul_scalar32 a A B b C = crs_dense_matmul_scalar a A B b C.
Proof.
  intros FM FN (S1 & S2). unfold matmul_scalar32, crs_dense_matmul_scalar.
  rewrite (int_of_id FM), (int_of_id FN), !Nat2Z.id. unfold fits31 in *.
  destruct (m_col A =? d_row B); cbn [assert_ bind]; auto.
  destruct (m_row A =? d_row C); cbn [assert_ bind]; auto.
  destruct (d_col B =? d_col C); cbn [assert_ bind]; auto.
  set (N := d_col B) in *. set (M := m_row A) in *. f_equal.
  apply for_ext. intros j v Hj. apply for_ext. intros i w Hi.
  destruct (rd (m_rp A) i) as [lo| | | |] eqn:E1; cbn [bind]; auto.
  destruct (rd (m_rp A) (i + 1)) as [hi| | | |] eqn:E2; cbn [bind]; auto.
  match goal with |- bind (for_ _ _ ?f _) _ = bind (for_ _ _ ?g _) _ =>
    rewrite (@for_ext F lo hi f g) end.
  - destruct (for_ lo hi _ _) as [t| | | |]; cbn [bind]; auto.
    assert (Hb : i * N + j < M * N) by nia.
    rewrite int_mul_ok by nia. cbn [bind]. rewrite int_add_ok by nia. cbn [bind].
    replace (Z.to_nat (Z.of_nat i * Z.of_nat N + Z.of_nat j)) with (i * N + j) by lia. reflexivity.
  - intros k t Hk. destruct (rd (m_val A) (m_first A + k)); cbn [bind]; auto.
    destruct (rd (m_ci A) k) as [c| | | |] eqn:E3; cbn [bind]; auto.
    pose proof (S2 i _ ltac:(lia) (row_in A _ E1 E2 Hk E3)) as G. cbn [fst] in G.
    assert (Hb : N * c + j < N * (c + 1)) by nia.
    rewrite int_mul_ok by nia. cbn [bind]. rewrite int_add_ok by nia. cbn [bind].
    replace (Z.to_nat (Z.of_nat N * Z.of_nat c + Z.of_nat j)) with (N * c + j) by lia. reflexivity.
Qed.

(** scalar build: the call is defined exactly when every subscript is an int, and then gives the C18 result *)
Theorem C110_matmul_scalar_partial (a : F) (A : crs F) (B : dense F) (b : F) (C : dense F) :
  crs_readable A -> dense_ok B -> dense_ok C ->
  m_col A = d_row B -> m_row A = d_row C -> d_col B = d_col C ->
  fits31 (m_row A) -> fits31 (d_col B) -> 0 < d_col B ->
  ((exists C', matmul_scalar32 a A B b C = Ok C') <-> subscripts_fit A (d_col B)) /\
  (subscripts_fit A (d_col B) -> matmul_scalar32 a A B b C = crs_dense_matmul_scalar a A B b C).
Proof.
  intros W WB WC E1 E2 E3 FM FN HN. split; [|intros; now apply scalar32_eq].
  split; [|intros S; rewrite scalar32_eq by auto;
            destruct (C18_crs_dense_scalar a A B b C W WB WC E1 E2 E3) as (C' & E & _); eauto].
  intros (C' & H). unfold matmul_scalar32 in H.
  rewrite (int_of_id FM), (int_of_id FN), !Nat2Z.id in H. rewrite <- E1, <- E2, <- E3, !Nat.eqb_refl in H. cbn [assert_ bind] in H.
  set (N := d_col B) in *. set (M := m_row A) in *.
  apply bind_ok in H. destruct H as (v & H & _).
  destruct (for_ok_inv _ _ H (i := N - 1) ltac:(lia)) as (v1 & v2 & Hj). clear H.
  assert (K : forall i, i < M -> (Z.of_nat (i * N + N) <= 2 ^ 31)%Z /\
    forall p, In p (crs_row A i) -> (Z.of_nat (N * (fst p + 1)) <= 2 ^ 31)%Z).
  { intros i Hi. destruct (for_ok_inv _ _ Hj (i := i) ltac:(lia)) as (w1 & w2 & Hb). cbv beta in Hb.
    apply bind_ok in Hb. destruct Hb as (lo & Elo & Hb). apply bind_ok in Hb. destruct Hb as (hi & Ehi & Hb).
    apply bind_ok in Hb. destruct Hb as (t & Et & Hb).
    apply bind_ok in Hb. destruct Hb as (y & Ey & Hb). apply bind_ok in Hb. destruct Hb as (y' & Ey' & _).
    apply int_mul_inv in Ey. apply int_add_inv in Ey'. destruct Ey as (-> & L). split; [lia|].
    intros p Hp. unfold crs_row in Hp. apply in_map_iff in Hp. destruct Hp as (k & <- & Hk). apply in_seq in Hk.
    apply (@rd_inv _ _ _ _ 0) in Elo. apply (@rd_inv _ _ _ _ 0) in Ehi. unfold rpn in Hk.
    destruct (for_ok_inv _ _ Et (i := k) ltac:(lia)) as (t1 & t2 & Hc). cbv beta in Hc.
    apply bind_ok in Hc. destruct Hc as (q & _ & Hc). apply bind_ok in Hc. destruct Hc as (c & Ec & Hc).
    apply bind_ok in Hc. destruct Hc as (x & Ex & Hc). apply bind_ok in Hc. destruct Hc as (x' & Ex' & _).
    apply int_mul_inv in Ex. apply int_add_inv in Ex'. destruct Ex as (-> & L').
    apply (@rd_inv _ _ _ _ 0) in Ec. cbn [fst]. unfold cin. destruct Ec as (_ & ->). lia. }
  unfold subscripts_fit; fold M; split.
  - destruct (Nat.eq_dec M 0) as [HM|HM]; [rewrite HM; cbn; lia|]. destruct (K (M - 1) ltac:(lia)) as (L & _).
    replace (M * N) with ((M - 1) * N + N) by nia. exact L.
  - intros i p Hi. apply K. exact Hi.
Qed.

(** *** AVX builds *)
Lemma simd_while_ext fuel w N (s1 s2 : nat -> list F -> res (list F)) j Cd :
  (forall j Cd, j + w <= N -> s1 j Cd = s2 j Cd) -> simd_while fuel w N s1 j Cd = simd_while fuel w N s2 j Cd.
Proof.
  intros H. revert j Cd. induction fuel as [|fuel IH]; intros j Cd; cbn [simd_while]; destruct (Nat.leb_spec (j + w) N); auto.
  rewrite H by auto. destruct (s2 j Cd); cbn [bind]; auto.
Qed.

(** the int version of an entry kernel does what the unbounded one does, while the subscripts fit *)
Definition entry_agrees (e32 : F -> F -> list F -> nat -> Z -> nat -> Z -> Z -> list F -> res (list F))
  (e : F -> F -> list F -> nat -> nat -> nat -> list F -> res (list F)) : Prop :=
  forall a v Bd fB Br fC Cr N Cd, (Z.of_nat N < 2 ^ 31)%Z -> (Z.of_nat (Br + N) <= 2 ^ 31)%Z -> (Z.of_nat (Cr + N) <= 2 ^ 31)%Z ->
    e32 a v Bd fB (Z.of_nat Br) fC (Z.of_nat Cr) (Z.of_nat N) Cd = e a v Bd (fB + Br) (fC + Cr) N Cd.

Lemma rest32_eq a v Bd fB Br fC Cr j N Cd : (Z.of_nat (Br + N) <= 2 ^ 31)%Z -> (Z.of_nat (Cr + N) <= 2 ^ 31)%Z ->
  simd_rest32 a v Bd fB (Z.of_nat Br) fC (Z.of_nat Cr) j (Z.of_nat N) Cd = simd_rest (F := F) a v Bd (fB + Br) (fC + Cr) j N Cd.
Proof.
  intros HB HC. unfold simd_rest32, simd_rest. rewrite Nat2Z.id. apply for_ext. intros q C' Hq.
  rewrite !int_add_ok by lia. cbn [bind].
  replace (fC + Z.to_nat (Z.of_nat Cr + Z.of_nat q)) with (fC + Cr + q) by lia.
  replace (fB + Z.to_nat (Z.of_nat Br + Z.of_nat q)) with (fB + Br + q) by lia. reflexivity.
Qed.
Lemma trip32_eq lanes offs Av Bd fB BB fC CC Cd : Forall (fun o => Z.of_nat (BB + o) < 2 ^ 31 /\ Z.of_nat (CC + o) < 2 ^ 31)%Z offs ->
  simd_trip32 lanes offs Av Bd fB (Z.of_nat BB) fC (Z.of_nat CC) Cd =
  fold_left (fun r o => Cd <- r ;; simd_step (F := F) lanes Av Bd (fB + BB + o) Cd (fC + CC + o)) offs (Ok Cd).
Proof.
  intros H. revert Cd. induction H as [|o offs (H1 & H2) _ IH]; intros Cd; cbn [simd_trip32 fold_left]; auto.
  rewrite !int_add_ok by lia. cbn [bind].
  replace (fC + Z.to_nat (Z.of_nat CC + Z.of_nat o)) with (fC + CC + o) by lia.
  replace (fB + Z.to_nat (Z.of_nat BB + Z.of_nat o)) with (fB + BB + o) by lia.
  destruct (simd_step lanes Av Bd (fB + BB + o) Cd (fC + CC + o)) as [C'| | | |]; cbn [bind]; [apply IH|..];
    clear; induction offs; cbn [fold_left bind]; auto.
Qed.
Lemma loop32_eq w offs lanes N Av Bd fB Br fC Cr j Cd : 0 < w <= 32 -> Forall (fun o => o < w) offs ->
  (Z.of_nat N < 2 ^ 31)%Z -> (Z.of_nat (Br + N) <= 2 ^ 31)%Z -> (Z.of_nat (Cr + N) <= 2 ^ 31)%Z ->
  simd_loop32 w offs lanes (Z.of_nat N) Av Bd fB (Z.of_nat Br) fC (Z.of_nat Cr) j Cd =
  simd_while (S N) w N (fun j Cd =>
    fold_left (fun r o => Cd <- r ;; simd_step (F := F) lanes Av Bd (fB + Br + j + o) Cd (fC + Cr + j + o)) offs (Ok Cd)) j Cd.
Proof.
  intros Hw Ho HN HB HC. unfold simd_loop32. rewrite int_sub_ok by lia. cbn [bind]. rewrite Nat2Z.id.
  apply simd_while_ext. intros q C' Hq. rewrite !int_add_ok by lia. cbn [bind].
  replace (Z.of_nat Br + Z.of_nat q)%Z with (Z.of_nat (Br + q)) by lia.
  replace (Z.of_nat Cr + Z.of_nat q)%Z with (Z.of_nat (Cr + q)) by lia.
  rewrite trip32_eq.
  - assert (G : forall (r : res (list F)), fold_left (fun r o => Cd <- r ;; simd_step lanes Av Bd (fB + (Br + q) + o) Cd (fC + (Cr + q) + o)) offs r =
      fold_left (fun r o => Cd <- r ;; simd_step lanes Av Bd (fB + Br + q + o) Cd (fC + Cr + q + o)) offs r).
    { clear. induction offs as [|o offs IH]; intros r; cbn [fold_left]; auto. rewrite IH.
      rewrite !Nat.add_assoc. reflexivity. }
    apply G.
  - eapply Forall_impl; [|exact Ho]. cbv beta. intros o Hlt. lia.
Qed.

Lemma entry_double_agrees : entry_agrees avx_entry_double32 avx_entry_double.
Proof.
  intros a v Bd fB Br fC Cr N Cd HN HB HC. unfold avx_entry_double32, avx_entry_double.
  rewrite loop32_eq by (auto; try lia; repeat constructor; lia). cbn [fold_left bind].
  rewrite (@simd_while_ext _ _ _ _ (fun j Cd => simd_step 4 (fmul a v) Bd (fB + Br + j) Cd (fC + Cr + j)))
    by (intros; now rewrite !Nat.add_0_r).
  destruct (simd_while _ _ _ _ _ _) as [[C' j]| | | |]; cbn [bind]; auto. now apply rest32_eq.
Qed.
Lemma entry_float_agrees : entry_agrees avx_entry_float32 avx_entry_float.
Proof.
  intros a v Bd fB Br fC Cr N Cd HN HB HC. unfold avx_entry_float32, avx_entry_float.
  rewrite loop32_eq by (auto; try lia; repeat constructor; lia). cbn [fold_left bind].
  rewrite (@simd_while_ext _ 32 _ _ (fun j Cd =>
      Cd <- simd_step 8 (fmul a v) Bd (fB + Br + j) Cd (fC + Cr + j) ;;
      Cd <- simd_step 8 (fmul a v) Bd (fB + Br + j + 8) Cd (fC + Cr + j + 8) ;;
      Cd <- simd_step 8 (fmul a v) Bd (fB + Br + j + 16) Cd (fC + Cr + j + 16) ;;
      simd_step 8 (fmul a v) Bd (fB + Br + j + 24) Cd (fC + Cr + j + 24))).
  2:{ intros j C' _. rewrite !Nat.add_0_r.
      repeat match goal with |- context [bind (simd_step ?a ?b ?c ?d ?e ?f) _] =>
        destruct (simd_step a b c d e f); cbn [bind]; auto end. }
  destruct (simd_while _ 32 _ _ _ _) as [[C' j]| | | |]; cbn [bind]; auto.
  rewrite loop32_eq by (auto; try lia; repeat constructor; lia). cbn [fold_left bind].
  rewrite (@simd_while_ext _ 8 _ _ (fun j Cd => simd_step 8 (fmul a v) Bd (fB + Br + j) Cd (fC + Cr + j)))
    by (intros; now rewrite !Nat.add_0_r).
  destruct (simd_while _ 8 _ _ _ _) as [[C'' j']| | | |]; cbn [bind]; auto. now apply rest32_eq.
Qed.

(** AVX builds: while all subscripts and the element count of C are ints, the C18 result; the call is
    undefined as soon as C has 2^31 elements, or a stored entry's row of B starts at 2^31 or later *)
Theorem C110_matmul_avx_partial e32 e (a : F) (A : crs F) (B : dense F) (b : F) (C : dense F) :
  (e32 = avx_entry_double32 /\ e = avx_entry_double) \/ (e32 = avx_entry_float32 /\ e = avx_entry_float) ->
  m_col A = d_row B -> m_row A = d_row C -> d_col B = d_col C ->
  fits31 (m_row A) -> fits31 (d_col B) ->
  (subscripts_fit A (d_col B) -> fits31 (m_row A * d_col B) -> matmul_avx32 e32 a A B b C = crs_dense_matmul_avx e a A B b C) /\
  (~ fits31 (m_row A * d_col B) -> matmul_avx32 e32 a A B b C = UB) /\
  (forall i p C', i < m_row A -> In p (crs_row A i) -> ~ fits31 (d_col B * fst p) -> crs_readable A ->
     matmul_avx32 e32 a A B b C <> Ok C').
Proof.
  intros He E1 E2 E3 FM FN.
  assert (HE : entry_agrees e32 e) by (destruct He as [(-> & ->)|(-> & ->)]; [apply entry_double_agrees|apply entry_float_agrees]).
  unfold matmul_avx32, crs_dense_matmul_avx. rewrite (int_of_id FM), (int_of_id FN). unfold fits31 in FM, FN.
  rewrite <- E1, <- E2, <- E3, !Nat.eqb_refl. cbn [assert_ bind]. set (N := d_col B) in *. set (M := m_row A) in *.
  split; [|split].
  - intros (S1 & S2) S3. unfold fits31 in S3. rewrite int_mul_ok by nia. cbn [bind].
    replace (Z.to_nat (Z.of_nat M * Z.of_nat N)) with (M * N) by lia. rewrite Nat2Z.id.
    destruct (for_ 0 (M * N) _ _) as [v| | | |]; cbn [bind]; auto. f_equal.
    apply for_ext. intros i w Hi.
    destruct (rd (m_rp A) i) as [lo| | | |] eqn:G1; cbn [bind]; auto.
    destruct (rd (m_rp A) (i + 1)) as [hi| | | |] eqn:G2; cbn [bind]; auto.
    assert (Hb : i * N + N <= M * N) by nia. rewrite int_mul_ok by nia. cbn [bind].
    apply for_ext. intros k t Hk. destruct (rd (m_ci A) k) as [c| | | |] eqn:G3; cbn [bind]; auto.
    destruct (rd (m_val A) (m_first A + k)); cbn [bind]; auto.
    pose proof (S2 i _ ltac:(lia) (row_in A _ G1 G2 Hk G3)) as G. cbn [fst] in G.
    assert (HNc : (Z.of_nat (N * c) < 2 ^ 31)%Z) by (destruct N; nia).
    rewrite int_mul_ok by lia. cbn [bind].
    replace (Z.of_nat N * Z.of_nat c)%Z with (Z.of_nat (N * c)) by lia.
    replace (Z.of_nat i * Z.of_nat N)%Z with (Z.of_nat (i * N)) by lia.
    apply HE; lia.
  - intros S. unfold fits31 in S. unfold int_mul.
    destruct (Z.ltb_spec (Z.of_nat M * Z.of_nat N) (2 ^ 31)); [lia|]. now rewrite andb_false_r.
  - intros i p C' Hi Hp S W H. unfold fits31 in S. apply bind_ok in H. destruct H as (MN & _ & H).
    apply bind_ok in H. destruct H as (v & _ & H). apply bind_ok in H. destruct H as (v' & H & _).
    rewrite Nat2Z.id in H. destruct (for_ok_inv _ _ H (i := i) ltac:(lia)) as (w1 & w2 & Hb). cbv beta in Hb.
    apply bind_ok in Hb. destruct Hb as (lo & Elo & Hb). apply bind_ok in Hb. destruct Hb as (hi & Ehi & Hb).
    apply bind_ok in Hb. destruct Hb as (Cr & _ & Hb).
    unfold crs_row in Hp. apply in_map_iff in Hp. destruct Hp as (k & <- & Hk). apply in_seq in Hk.
    apply (@rd_inv _ _ _ _ 0) in Elo. apply (@rd_inv _ _ _ _ 0) in Ehi. unfold rpn in Hk.
    destruct (for_ok_inv _ _ Hb (i := k) ltac:(lia)) as (t1 & t2 & Hc). cbv beta in Hc.
    apply bind_ok in Hc. destruct Hc as (c & Ec & Hc). apply bind_ok in Hc. destruct Hc as (q & _ & Hc).
    apply bind_ok in Hc. destruct Hc as (x & Ex & _). apply int_mul_inv in Ex. destruct Ex as (_ & L).
    apply (@rd_inv _ _ _ _ 0) in Ec. cbn [fst] in S. unfold cin in S. destruct Ec as (_ & Ec). rewrite Ec in S. lia.
Qed.
End Matmul.
Print Assumptions C110_matmul_scalar_partial.
Print Assumptions C110_matmul_avx_partial.

(** a 1 x (2^15 + 1) CRS matrix with one entry in its last column times a matrix with 2^16 columns (2^31 +
    2^16 elements): valid objects, matching sizes, undefined behaviour in both builds; the product has only
    2^16 elements *)
Theorem C110_matmul_refuted : exists (A : crs Z) (B C : dense Z),
  crs_ok A /\ dense_ok B /\ dense_ok C /\ m_col A = d_row B /\ m_row A = d_row C /\ d_col B = d_col C /\
  m_row A = 1 /\ m_nnz A = 1 /\ Z.of_nat (m_col A) = (2 ^ 15 + 1)%Z /\ Z.of_nat (d_col B) = (2 ^ 16)%Z /\
  (exists C', crs_dense_matmul_scalar 1%Z A B 0%Z C = Ok C') /\
  (forall C', matmul_scalar32 1%Z A B 0%Z C <> Ok C') /\
  (forall C', matmul_avx32 avx_entry_double32 1%Z A B 0%Z C <> Ok C') /\
  (forall C', matmul_avx32 avx_entry_float32 1%Z A B 0%Z C <> Ok C').
Proof.
  set (N := Z.to_nat (2 ^ 16)). assert (HN : Z.of_nat N = (2 ^ 16)%Z) by (unfold N; lia).
  set (c := Z.to_nat (2 ^ 15)). assert (Hc : Z.of_nat c = (2 ^ 15)%Z) by (unfold c; lia).
  clearbody N c.
  set (A := @mkCrs Z 1 (c + 1) [0; 1] [c] [1%Z] 0 1 1 true 0).
  set (B := @mkDense Z (c + 1) N (repeat 1%Z ((c + 1) * N)) 0 ((c + 1) * N) ((c + 1) * N) true).
  set (C := @mkDense Z 1 N (repeat 1%Z (1 * N)) 0 (1 * N) (1 * N) true).
  assert (WA : crs_ok A).
  { unfold crs_ok, rpn, cin, A. cbn. repeat split; auto; try lia.
    - intros [|i] Hi; cbn; lia.
    - intros [|k] Hk; lia. }
  assert (WB : dense_ok B) by (unfold dense_ok, B; cbn [d_val d_alloc d_nnz d_row d_col d_first]; rewrite repeat_length; repeat split; lia).
  assert (WC : dense_ok C) by (unfold dense_ok, C; cbn [d_val d_alloc d_nnz d_row d_col d_first]; rewrite repeat_length; repeat split; lia).
  assert (RA : crs_readable A) by now apply crs_ok_readable.
  assert (Hin : In (c, 1%Z) (crs_row A 0)) by (unfold crs_row, A, rpn, cin, vln; cbn; auto).
  assert (FM : fits31 (m_row A)) by (unfold fits31, A; cbn; lia).
  assert (FN : fits31 (d_col B)) by (unfold fits31, B; cbn [d_col]; lia).
  exists A, B, C. do 3 (split; [assumption|]). do 5 (split; [reflexivity|]).
  split; [unfold A; cbn [m_col]; lia|]. split; [exact HN|].
  split; [destruct (C18_crs_dense_scalar 1%Z A B 0%Z C RA WB WC eq_refl eq_refl eq_refl) as (C' & E & _); eauto|].
  assert (Hp : ~ fits31 (d_col B * fst (c, 1%Z))) by (unfold fits31, B; cbn [d_col fst]; nia).
  split; [|split].
  - intros C' H. assert (HN0 : 0 < d_col B) by (unfold B; cbn [d_col]; lia).
    destruct (C110_matmul_scalar_partial 1%Z 0%Z RA WB WC eq_refl eq_refl eq_refl FM FN HN0) as (Q & _).
    destruct (proj1 Q (ex_intro _ C' H)) as (_ & S). specialize (S 0 _ ltac:(cbn; lia) Hin).
    unfold fits31 in Hp. cbn [fst] in *. nia.
  - intros C'. destruct (@C110_matmul_avx_partial Z Zscalar avx_entry_double32 avx_entry_double 1%Z A B 0%Z C ltac:(auto) eq_refl eq_refl eq_refl FM FN)
      as (_ & _ & Q). apply (Q 0 _ C' ltac:(cbn; lia) Hin Hp RA).
  - intros C'. destruct (@C110_matmul_avx_partial Z Zscalar avx_entry_float32 avx_entry_float 1%Z A B 0%Z C ltac:(auto) eq_refl eq_refl eq_refl FM FN)
      as (_ & _ & Q). apply (Q 0 _ C' ltac:(cbn; lia) Hin Hp RA).
Qed.
Print Assumptions C110_matmul_refuted.

(** the hypotheses of the in-range theorems are met: a 1 x 2 CRS times a 2 x 5 matrix *)
Example C110_example : exists (A : crs Z) (B C C' : dense Z),
  @crs_of_arrays Z Zscalar one_thread 1 2 2 [0;2] [0;1] [2;3]%Z = Ok A /\ fits31 (m_row A) /\ fits31 (d_col B) /\ fits31 (m_row A * d_col B) /\
  subscripts_fit A (d_col B) /\ matmul_scalar32 10%Z A B 7%Z C = Ok C' /\
  matmul_avx32 avx_entry_double32 10%Z A B 7%Z C = Ok C' /\ d_val C' = [327;647;967;1287;1607]%Z /\
  fits31 5 /\ reached 5 5.
Proof.
  do 4 eexists. split; [vm_compute; reflexivity|].
  split; [vm_compute; reflexivity|].
  split; [instantiate (1 := @mkDense Z 2 5 [1;2;3;4;5;10;20;30;40;50]%Z 0 10 10 true); vm_compute; reflexivity|].
  split; [vm_compute; reflexivity|].
  split.
  { split; [vm_compute; discriminate|]. intros [|i] p Hi Hp; cbn in Hi; [|lia]. cbn in Hp.
    destruct Hp as [<-|[<-|[]]]; vm_compute; discriminate. }
  split; [instantiate (2 := @mkDense Z 1 5 [1;1;1;1;1]%Z 0 5 5 true); vm_compute; reflexivity|].
  split; [vm_compute; reflexivity|]. split; [reflexivity|]. split; [reflexivity|].
  exists 0%Z, 5%Z. split; [lia|]. left. lia.
Qed.
