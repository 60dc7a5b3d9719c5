(** * PropertiesNamed: the named entry points built from the generic operations of C17, C20, C29, C42 and C60 (each
    with its own operator and constants), Dense comparison (C101), construction of tensors from arrays and other
    objects (C102), tensor_COO resize (C28), COO is_same_structure (C16), copying and converting LinearOperators
    (C33). *)
From Coq Require Import NArith.
From Verif Require CrsMiscProof.
From Verif Require Import Base Scalar Spec SumFacts Mem MemSpec ParProof KernelProof VecModel VecSpec DenseModel CooModel
  Loops Observe CooProof CooMiscProof CrsModel CrsObserve CrsProof CrsSimProof DenseBlasModel DenseSpec DenseBlasProof DenseProof
  PropertiesDense PropertiesCoo PropertiesCrs TensorModel TensorSpec TensorProof ReshapeProof TensorCooProof TensorConvProof
  TensorBlasModel TensorBlasSpec TensorBlasProof PropertiesTensorBlas TensorCrsModel TensorCrsSpec TensorCrsProof
  PropertiesTensorCrs LinOpModel LinOpSpec LinOpProof LinOpProof2 PropertiesLinOp.
Set Implicit Arguments.

(** ** C20, C29: the eight named diagonal operations of each class, with their own operator *)
Section Diag.
Context {F : Type} {SF : Scalar F}.

Theorem C20_dense_diag_named (A : marg) (alpha : F) (x : arg) (m : mem F) :
  g_first A = 0 -> mat_ok m A -> arg_ok m x -> a_len x = Nat.min (g_row A) (g_col A) -> vapart x A ->
  let s (op : F -> F -> F) := fun i j => if i =? j then op (mel m A i j) alpha else mel m A i j in
  let v (op : F -> F -> F) := fun i j => if i =? j then op (mel m A i j) (el m x i) else mel m A i j in
  mcomputes (k_diag_add A alpha) m A (s fadd) /\ mcomputes (k_diag_sub A alpha) m A (s fsub) /\
  mcomputes (k_diag_mul A alpha) m A (s fmul) /\ mcomputes (k_diag_div A alpha) m A (s fdiv) /\
  mcomputes (k_diag_add_v A x) m A (v fadd) /\ mcomputes (k_diag_sub_v A x) m A (v fsub) /\
  mcomputes (k_diag_mul_v A x) m A (v fmul) /\ mcomputes (k_diag_div_v A x) m A (v fdiv).
Proof. 
  intros H1 H2 H3 H4 H5 s v. pose proof (fun op => @C20_dense_diag_op F SF op A alpha x m H1 H2 H3 H4 H5) as G.
  exact (conj (proj1 (G fadd)) (conj (proj1 (G fsub)) (conj (proj1 (G fmul)) (conj (proj1 (G fdiv)) (conj (proj2 (G fadd)) (conj (proj2 (G fsub)) (conj (proj2 (G fmul)) (proj2 (G fdiv))))))))).
 Qed.

Theorem C29_tensor_diag_named_partial (A : targ) (alpha : F) (x : arg) (m : mem F) :
  rev (h_shape A) = h_shape A -> tens_ok m A -> h_shape A <> [] -> arg_ok m x -> tvapart x A ->
  a_len x = min_dim (h_shape A) ->
  let s (op : F -> F -> F) := fun pos => if on_diag pos then op (tmel m A pos) alpha else tmel m A pos in
  let v (op : F -> F -> F) := fun pos => if on_diag pos then op (tmel m A pos) (el m x (nth 0 pos 0)) else tmel m A pos in
  tcomputes (k_tdiag_add A alpha) m A (s fadd) /\ tcomputes (k_tdiag_sub A alpha) m A (s fsub) /\
  tcomputes (k_tdiag_mul A alpha) m A (s fmul) /\ tcomputes (k_tdiag_div A alpha) m A (s fdiv) /\
  tcomputes (k_tdiag_add_v A x) m A (v fadd) /\ tcomputes (k_tdiag_sub_v A x) m A (v fsub) /\
  tcomputes (k_tdiag_mul_v A x) m A (v fmul) /\ tcomputes (k_tdiag_div_v A x) m A (v fdiv).
Proof. 
  intros H1 H2 H3 H4 H5 H6 s v.
  assert (G : forall op, tcomputes (k_tdiag_s op A alpha) m A (s op) /\ tcomputes (k_tdiag_v op A x) m A (v op)).
  { intros op. destruct (@C29_tensor_diag_partial F SF op A alpha x m H1 H2) as [G1 G2]. split; auto. }
  exact (conj (proj1 (G fadd)) (conj (proj1 (G fsub)) (conj (proj1 (G fmul)) (conj (proj1 (G fdiv)) (conj (proj2 (G fadd)) (conj (proj2 (G fsub)) (conj (proj2 (G fmul)) (proj2 (G fdiv))))))))).
 Qed.
End Diag.
Print Assumptions C20_dense_diag_named.
Print Assumptions C29_tensor_diag_named_partial.

(** ** C42: the products without alpha and beta; the old contents of the result do not matter *)
Section Tens.
Context {F : Type} {SF : Scalar F}.
Hypothesis Hex : exact SF.
Local Open Scope F_scope.

Lemma tcomputes_ext k (m : mem F) (A : targ) g h : (forall pos, g pos = h pos) -> tcomputes k m A g -> tcomputes k m A h.
Proof.
  intros E (m' & K1 & K2 & K3 & K4 & K5). exists m'. do 3 (split; auto). split; auto. intros pos Hp. now rewrite <- E, K4.
Qed.

Theorem C42_tensvec_plain_partial (A : targ) (x : arg) (y : targ) (s : list nat) (k : nat) (m : mem F) :
  h_shape A = s ++ [k] -> h_shape y = s -> a_len x = k -> (0 < k)%nat -> int_sized (s ++ [k]) ->
  tens_ok m A -> arg_ok m x -> tens_ok m y -> tapart A y -> tvapart x y ->
  exists kern, k_tensvec A x y = Ok kern /\
    tcomputes kern m y (fun pos => sum_n k (fun l => tmel m A (pos ++ [l]) * el m x l)).
Proof.
  intros. destruct (@C42_tensvec_partial F SF Hex f1 f0 A x y s k m) as (kern & E & H'); auto. exists kern. split; auto.
  eapply tcomputes_ext; [|exact H']. intros pos. cbn beta. apply (ex_one_zero Hex).
Qed.

Theorem C42_tensmat_plain_partial (A : targ) (B : marg) (C : targ) (s : list nat) (k n : nat) (m : mem F) :
  h_shape A = s ++ [k] -> g_row B = k -> g_col B = n -> h_shape C = s ++ [n] -> (0 < k)%nat ->
  int_sized (s ++ [k]) -> int_sized (s ++ [n]) ->
  tens_ok m A -> mat_ok m B -> tens_ok m C -> tapart A C -> tmapart B C ->
  exists kern, k_tensmat A B C = Ok kern /\
    tcomputes kern m C (fun pos => let p := firstn (length s) pos in let j := nth (length s) pos 0%nat in
      sum_n k (fun l => tmel m A (p ++ [l]) * mel m B l j)).
Proof.
  intros. destruct (@C42_tensmat_partial F SF Hex f1 f0 A B C s k n m) as (kern & E & H'); auto. exists kern. split; auto.
  eapply tcomputes_ext; [|exact H']. intros pos. cbn beta zeta. apply (ex_one_zero Hex).
Qed.

Theorem C42_mattens_plain_partial (A : marg) (B C : targ) (t : list nat) (r k : nat) (m : mem F) :
  g_row A = r -> g_col A = k -> h_shape B = k :: t -> h_shape C = r :: t -> (0 < k)%nat ->
  int_sized (k :: t) -> int_sized (r :: t) ->
  mat_ok m A -> tens_ok m B -> tens_ok m C -> tmapart A C -> tapart B C ->
  exists kern, k_mattens A B C = Ok kern /\
    tcomputes kern m C (fun pos => let i := nth 0 pos 0%nat in let q := skipn 1 pos in
      sum_n k (fun l => mel m A i l * tmel m B (l :: q))).
Proof.
  intros. destruct (@C42_mattens_partial F SF Hex f1 f0 A B C t r k m) as (kern & E & H'); auto. exists kern. split; auto.
  eapply tcomputes_ext; [|exact H']. intros pos. cbn beta zeta. apply (ex_one_zero Hex).
Qed.

Theorem C42_tensmul_plain_partial (A B C : targ) (s t : list nat) (k : nat) (m : mem F) :
  h_shape A = s ++ [k] -> h_shape B = k :: t -> h_shape C = s ++ t -> (0 < k)%nat ->
  int_sized (s ++ [k]) -> int_sized (k :: t) -> int_sized (s ++ t) ->
  tens_ok m A -> tens_ok m B -> tens_ok m C -> tapart A C -> tapart B C ->
  exists kern, k_tensmul A B C = Ok kern /\
    tcomputes kern m C (fun pos => let p := firstn (length s) pos in let q := skipn (length s) pos in
      sum_n k (fun l => tmel m A (p ++ [l]) * tmel m B (l :: q))).
Proof.
  intros. destruct (@C42_tensmul_partial F SF Hex f1 f0 A B C s t k m) as (kern & E & H'); auto. exists kern. split; auto.
  eapply tcomputes_ext; [|exact H']. intros pos. cbn beta zeta. apply (ex_one_zero Hex).
Qed.

(** ** C60: tensmul without alpha and beta *)
Theorem C60_tensmul_plain {SC : Schedule} mul g (A : tcrs F) (B C : tdense F) (rest : list nat) : variant mul g ->
  tr_readable A -> td_ok B -> td_ok C -> t_shape B = n_cols (k_shape A) :: rest -> (0 < n_cols (k_shape A))%nat ->
  t_shape C = slices (k_shape A) ++ n_rows (k_shape A) :: rest ->
  int_range (prod (t_shape B)) -> int_range (n_cols (k_shape A)) -> int_range (n_rows (k_shape A)) ->
  int_range (n_rows (k_shape A) * prod rest) ->
  exists C', tr_tensmul mul A B C = Ok C' /\ td_ok C' /\ t_shape C' = t_shape C /\ tsame_outside C C' /\
    forall p i r (w : nat -> F), inside (slices (k_shape A)) p -> (i < n_rows (k_shape A))%nat -> inside rest r ->
      (forall k, (k < n_cols (k_shape A))%nat -> td_at B (k :: r) = Ok (w k)) ->
      td_at C' (p ++ i :: r) = Ok (row_fold f0 (fun v => v) (tr_row A p i) w).
Proof.
  intros V HR HB HC H1 H2 H3 H4 H5 H6 H7.
  destruct (@C60_tensmul F SF SC mul g f1 f0 A B C rest) as (C' & E & K1 & K2 & K3 & K4); auto.
  exists C'. do 4 (split; auto). intros p i r w Hp Hi Hr Hw.
  assert (Hin : inside (t_shape C) (p ++ i :: r)).
  { rewrite H3. unfold inside. apply Forall2_app; auto. }
  rewrite (K4 p i r (tel C (p ++ i :: r)) w); auto.
  - f_equal. rewrite (@C60_exact F SF SC mul g) by auto. apply (ex_one_zero Hex).
  - now apply td_at_ok.
Qed.
End Tens.
Print Assumptions C42_tensvec_plain_partial.
Print Assumptions C42_tensmat_plain_partial.
Print Assumptions C42_mattens_plain_partial.
Print Assumptions C42_tensmul_plain_partial.
Print Assumptions C60_tensmul_plain.

(** ** C17: matadd adds, matsub subtracts *)
Theorem C17_crs_matadd_named_partial {F} {SF : Scalar F} (A B C : crs F) : exact SF ->
  crs_ok A -> crs_ok B -> crs_ok C -> same_pattern A B -> same_pattern A C ->
  crs_same_structure A B = true -> crs_same_structure A C = true ->
  (exists C', crs_matadd A B C = Ok C' /\ crs_ok C' /\ same_pattern A C' /\
     forall i j, summed (crs_entries C') i j = fadd (summed (crs_entries A) i j) (summed (crs_entries B) i j)) /\
  (exists C', crs_matsub A B C = Ok C' /\ crs_ok C' /\ same_pattern A C' /\
     forall i j, summed (crs_entries C') i j = fsub (summed (crs_entries A) i j) (summed (crs_entries B) i j)).
Proof.
  intros Hex WA WB WC PB PC SB SC'.
  assert (G : forall op, op = fadd \/ op = fsub -> exists C', crs_matop op A B C = Ok C' /\ crs_ok C' /\ same_pattern A C' /\
     forall i j, summed (crs_entries C') i j = op (summed (crs_entries A) i j) (summed (crs_entries B) i j)).
  { intros op Hop. destruct (@C17_crs_matadd_partial F SF op A B C) as (C' & E & W & R1 & R2 & HE & HS); auto.
    exists C'. do 2 (split; auto). split; [|now apply HS]. split; auto. split; auto. rewrite HE, map_map.
    destruct PB as (_ & _ & PB). clear - PB. revert PB. generalize (crs_entries B). induction (crs_entries A) as [|e l IH]; intros [|e' l'] H; try discriminate; auto.
    cbn in *. injection H as H0 H. f_equal; auto. }
  split; apply G; auto.
Qed.
Print Assumptions C17_crs_matadd_named_partial.

(** ** C16 (COO): is_same_structure decides whether two matrices with equally many entries store the same positions in
    the same order *)
Theorem C16_coo_same_structure_partial {F} {SF : Scalar F} (a b : coo F) : coo_ok a -> coo_ok b -> c_nnz a = c_nnz b ->
  exists r, coo_same_structure a b = Ok r /\
    (r = true <-> c_row a = c_row b /\ c_col a = c_col b /\ map fst (coo_entries a) = map fst (coo_entries b)).
Proof.
  intros Wa Wb Hn. pose proof Wa as (A1 & A2 & A3 & A4). pose proof Wb as (B1 & B2 & B3 & B4). unfold coo_same_structure.
  destruct (@vequalI_ok (c_nnz a) (c_ci a) (c_ci b)) as (e2 & -> & H2); try lia.
  destruct (@vequalI_ok (c_nnz a) (c_ri a) (c_ri b)) as (e3 & -> & H3); try lia. cbn [bind].
  assert (HM : map fst (coo_entries a) = map fst (coo_entries b) <->
    (forall i, i < c_nnz a -> nth i (c_ci b) 0 = nth i (c_ci a) 0) /\ (forall i, i < c_nnz a -> nth i (c_ri b) 0 = nth i (c_ri a) 0)).
  { assert (N : forall c : coo F, coo_ok c -> forall i, i < c_nnz c -> nth i (map fst (coo_entries c)) (0,0) = (nth i (c_ri c) 0, nth i (c_ci c) 0)).
    { intros c Wc i Hi. change (0,0) with (fst ((0,0),@f0 F SF)). rewrite map_nth, coo_entries_nth by auto. reflexivity. }
    split.
    - intros H. split; intros i Hi; pose proof (N a Wa i Hi) as Q1; pose proof (N b Wb i ltac:(lia)) as Q2; rewrite H in Q1; congruence.
    - intros [P1 P2]. apply list_ext with (d := (0,0)).
      + rewrite !map_length, !coo_entries_length; auto.
      + intros i Hi. rewrite map_length, coo_entries_length in Hi by auto. rewrite N, N by (auto; lia). f_equal; symmetry; auto. }
  destruct e2; cbn [negb].
  - destruct e3; cbn [negb].
    + eexists; split; [reflexivity|]. rewrite andb_true_iff, !Nat.eqb_eq, HM, <- H2, <- H3. tauto.
    + eexists; split; [reflexivity|]. rewrite HM, <- H3. split; [discriminate|tauto].
  - eexists; split; [reflexivity|]. rewrite HM, <- H2. split; [discriminate|]. intros (_ & _ & Q & _). discriminate.
Qed.
Print Assumptions C16_coo_same_structure_partial.

(** ** C28: tensor_COO::resize(N, Val) keeps the first min(nnz, N) entries in order, new entries have an empty position
    and the value Val; an object that does not own its buffer is refused *)
Theorem C28_resize {F} {SF : Scalar F} (q : tcoo F) (N : nat) (Val : F) :
  (tc_ok q -> exists q', tc_resize q N Val = Ok q' /\ tc_ok q' /\ q_shape q' = q_shape q /\ q_nnz q' = N /\
     forall i, i < N -> i < q_nnz q -> nth_error (tc_entries q') i = nth_error (tc_entries q) i) /\
  (q_own q = false -> tc_resize q N Val = Throw).
Proof.
  split.
  - intros W. pose proof W as (H1 & H2 & H3 & H4).
    destruct (@tc_resize_ok F SF q N Val H4) as (q' & E & W' & S & Nn & Al & Ix & Vl & _); [lia|].
    exists q'. do 4 (split; auto). intros i Hi Hn.
    assert (L : forall r : tcoo F, tc_ok r -> forall i, i < q_nnz r -> nth_error (tc_entries r) i = Some (nth i (q_index r) [], nth i (q_val r) f0)).
    { intros r Wr k Hk. rewrite <- (TensorCooProof.tc_entries_nth Wr Hk).
      apply nth_error_nth'. rewrite (TensorCooProof.tc_entries_length Wr). auto. }
    rewrite L, L by (auto; lia). rewrite Vl by lia. do 2 f_equal. rewrite Ix, nth_vresize by lia. now rewrite (proj2 (Nat.ltb_lt i (length (q_index q)))) by lia.
  - intros H. unfold tc_resize. now rewrite H.
Qed.
Print Assumptions C28_resize.

(** ** C101: Dense operator== *)
(** For objects that are not windows into a bigger buffer, operator== decides equality of the dimensions and of all
    elements.  Missing from the full claim: windows (C101_window_refuted). *)
Theorem C101_dense_equal_partial {F} {SF : Scalar F} (a b : dense F) : dense_ok a -> dense_ok b ->
  d_first a = 0 -> d_first b = 0 ->
  exists r, dense_equal a b = Ok r /\
    (r = true <-> d_row a = d_row b /\ d_col a = d_col b /\
       forall i j x y, i < d_row a -> j < d_col a -> dense_at a i j = Ok x -> dense_at b i j = Ok y -> feqb y x = true).
Proof.
  intros Wa Wb Fa Fb. pose proof Wa as (A1 & A2 & A3). pose proof Wb as (B1 & B2 & B3). unfold dense_equal.
  destruct (Nat.eqb_spec (d_row a) (d_row b)) as [ER|ER]; cbn [negb].
  2:{ eexists; split; [reflexivity|]. split; [discriminate|]. tauto. }
  destruct (Nat.eqb_spec (d_col a) (d_col b)) as [EC|EC]; cbn [negb].
  2:{ eexists; split; [reflexivity|]. split; [discriminate|]. tauto. }
  rewrite Fa, Fb. cbn [Nat.eqb negb].
  destruct (@vequalF_ok F SF (d_nnz a) (d_val a) (d_val b)) as (r & E & H); [lia|rewrite B1; rewrite A2, ER, EC; lia|].
  exists r. split; auto. rewrite H.
  assert (G : forall d : dense F, dense_ok d -> d_first d = 0 -> forall i j, i < d_row d -> j < d_col d ->
    dense_at d i j = Ok (nth (d_col d * i + j) (d_val d) f0)).
  { intros d (D1 & D2 & D3) Fd i j Hi Hj. assert (d_col d * i + j < d_nnz d) by (rewrite D2; nia). unfold dense_at, dense_at1.
    rewrite (proj2 (Nat.ltb_lt _ _) Hi), (proj2 (Nat.ltb_lt _ _) Hj). cbn [assert_ bind].
    rewrite (proj2 (Nat.ltb_lt (d_col d * i + j) (d_nnz d))) by auto. cbn [assert_ bind].
    rewrite Fd. cbn [Nat.add]. rewrite (proj2 (Nat.ltb_lt (d_col d * i + j) (d_alloc d))) by lia. cbn [assert_ bind].
    apply rd_lt. lia. }
  split.
  - intros HH. split; auto. split; auto. intros i j x y Hi Hj. rewrite !G by (auto; lia). intros Ex Ey.
    injection Ex as <-. injection Ey as <-. rewrite <- EC. apply HH. rewrite A2. nia.
  - intros (_ & _ & HH) k Hk. rewrite A2 in Hk.
    assert (HC0 : d_col a <> 0) by nia.
    pose proof (Nat.div_mod k (d_col a) HC0) as Hd. pose proof (Nat.mod_upper_bound k (d_col a) HC0).
    assert (k / d_col a < d_row a) by (apply Nat.div_lt_upper_bound; nia).
    rewrite Hd. apply (HH (k / d_col a) (k mod d_col a)); auto; rewrite G by (auto; lia); rewrite <- ?EC; reflexivity.
Qed.
Print Assumptions C101_dense_equal_partial.

(** False of the code for windows: two windows at different offsets are always unequal, and two at the same offset are
    compared outside of the window. *)
Theorem C101_window_refuted :
  (exists a b : dense Z, dense_ok a /\ dense_ok b /\ d_row a = d_row b /\ d_col a = d_col b /\
     dense_at a 0 0 = dense_at b 0 0 /\ d_row a = 1 /\ d_col a = 1 /\ dense_equal a b = Ok false) /\
  (exists a b : dense Z, dense_ok a /\ dense_ok b /\ d_row a = d_row b /\ d_col a = d_col b /\
     dense_at a 0 0 = Ok 2%Z /\ dense_at b 0 0 = Ok 3%Z /\ dense_equal a b = Ok true).
Proof.
  split.
  - exists (mkDense 1 1 [7;7]%Z 0 1 2 true), (mkDense 1 1 [7;7]%Z 1 1 2 true). repeat split; cbn; try lia; vm_compute; reflexivity.
  - exists (mkDense 1 1 [1;2]%Z 1 1 2 true), (mkDense 1 1 [1;3]%Z 1 1 2 true). repeat split; cbn; try lia; vm_compute; reflexivity.
Qed.
Print Assumptions C101_window_refuted.

Example C101_example : exists a b c : dense Z,
  dense_of_array 2 2 [1;2;3;4]%Z = Ok a /\ dense_of_array 2 2 [1;2;3;4]%Z = Ok b /\ dense_of_array 2 2 [1;2;3;5]%Z = Ok c /\
  dense_ok a /\ d_first a = 0 /\ dense_equal a b = Ok true /\ dense_equal a c = Ok false.
Proof.
  do 3 eexists. do 3 (split; [vm_compute; reflexivity|]). split; [repeat split; cbn; lia|].
  split; [reflexivity|]. split; vm_compute; reflexivity.
Qed.

(** ** C102: tensors built from arrays and from other objects *)
Section C102.
Context {F : Type} {SF : Scalar F} {SC : Schedule}.

(** tensor_COO(shape, index, value): the stored entries are exactly the given pairs, in the given order *)
Theorem C102_coo_of_arrays (shape : list nat) (index : list (list nat)) (value : list F) : length index <= length value ->
  exists q, tc_of_arrays shape index value = Ok q /\ tc_ok q /\ q_shape q = shape /\ q_nnz q = length index /\
    tc_entries q = combine index value.
Proof.
  intros H. unfold tc_of_arrays.
  destruct (@tc_resize_ok F SF (mkTC shape index [] 0 0 true) (length index) f0) as (q & E & W & S & Nn & Al & Ix & _); cbn [q_own q_nnz q_val length]; auto; try lia.
  rewrite E. cbn [bind]. pose proof W as (W1 & W2 & W3 & W4). cbn [q_index q_shape] in *.
  assert (Ix' : q_index q = index) by (rewrite Ix; apply vresize_id).
  rewrite Nn. rewrite (@Loops.copy_loop0 F f0) by lia. cbn [bind].
  rewrite (skipn_all2 (q_val q)) by lia. rewrite app_nil_r.
  assert (HL : length (firstn (length index) value) = length index) by (rewrite firstn_length; lia).
  eexists; split; [reflexivity|]. split; [|split; [|split]]; cbn [q_shape q_nnz]; auto.
  - unfold tc_ok. cbn. rewrite HL, Ix', Al. auto.
  - unfold tc_entries. cbn [q_nnz q_index q_val]. rewrite Ix'. rewrite firstn_all2 by (rewrite combine_length, HL; lia).
    clear. revert value. induction index as [|p ix IH]; intros [|v vs]; cbn; auto. now rewrite IH.
Qed.

(** tensor_Dense::convert(tensor_Dense): shape and elements of the source.  Missing from the full claim: a source
    that is a window with an offset (C102_convert_window_refuted). *)
Theorem C102_dense_convert_partial (t s : tdense F) : td_ok s -> t_first s = 0 ->
  length (t_val t) = t_alloc t -> t_nnz t <= t_alloc t -> t_first t = 0 ->
  exists t', td_convert t s = Ok t' /\ td_ok t' /\ td_plain t' /\ t_shape t' = t_shape s /\
    forall pos, inside (t_shape s) pos -> td_at t' pos = td_at s pos.
Proof.
  intros W Fs H1 H2 H3. pose proof W as (S1 & S2 & S3). unfold td_convert.
  destruct (@td_resize_ok F SF (t_set_own (t_set_shape t (t_shape s))) (t_nnz s) f0) as (t1 & E & L1 & N1 & A1 & F1 & O1 & Sh); auto.
  rewrite E. cbn [bind]. rewrite N1. rewrite (@Loops.copy_loop0 F f0) by lia. cbn [bind].
  eexists; split; [reflexivity|]. cbn in Sh.
  assert (W' : td_ok (t_set_val t1 (firstn (t_nnz s) (t_val s) ++ skipn (t_nnz s) (t_val t1)))).
  { unfold td_ok. cbn. rewrite app_length, firstn_length, skipn_length, F1, Sh, N1. repeat split; auto; lia. }
  split; auto. split; [split; cbn; auto|]. split; auto. intros pos Hp. rewrite !td_at_ok by (auto; cbn; now rewrite Sh).
  f_equal. unfold tel. cbn. rewrite F1, Fs, Sh. cbn [Nat.add]. pose proof (row_major_lt Hp).
  rewrite app_nth1 by (rewrite firstn_length; lia). apply nth_firstn. lia.
Qed.

(** tensor_Dense::convert(matrix::Dense): a rank-2 tensor with the same elements.  Missing: windows. *)
Theorem C102_dense_of_matrix_partial (t : tdense F) (d : dense F) : dense_ok d -> d_first d = 0 ->
  length (t_val t) = t_alloc t -> t_nnz t <= t_alloc t -> t_first t = 0 ->
  exists t', td_convert_dense t d = Ok t' /\ td_ok t' /\ td_plain t' /\ t_shape t' = [d_row d; d_col d] /\
    forall i j, i < d_row d -> j < d_col d -> td_at t' [i; j] = Ok (dense_fn d i j).
Proof.
  intros W Fs H1 H2 H3. pose proof W as (S1 & S2 & S3). unfold td_convert_dense.
  destruct (@td_resize_ok F SF (t_set_shape (t_set_own t) [d_row d; d_col d]) (d_nnz d) f0) as (t1 & E & L1 & N1 & A1 & F1 & O1 & Sh); auto.
  rewrite E. cbn [bind]. rewrite N1. rewrite (@Loops.copy_loop0 F f0) by lia. cbn [bind].
  eexists; split; [reflexivity|]. cbn in Sh.
  assert (W' : td_ok (t_set_val t1 (firstn (d_nnz d) (d_val d) ++ skipn (d_nnz d) (t_val t1)))).
  { unfold td_ok. cbn. rewrite app_length, firstn_length, skipn_length, F1, Sh, N1. cbn. repeat split; auto; lia. }
  split; auto. split; [split; cbn; auto|]. split; auto. intros i j Hi Hj.
  assert (Hin : inside [d_row d; d_col d] [i; j]) by (repeat constructor; auto).
  rewrite td_at_ok by (auto; cbn; now rewrite Sh). f_equal. unfold tel, dense_fn. cbn [t_set_val t_first t_val t_shape].
  rewrite F1, Fs, Sh. cbn [Nat.add]. pose proof (row_major_lt Hin) as HL. cbn [prod row_major] in HL |- *.
  rewrite app_nth1 by (rewrite firstn_length; lia). rewrite nth_firstn by lia. f_equal. lia.
Qed.

(** tensor_CRS(shape, row_ptrs, col_inds, value): row i of the slice at p holds exactly the given columns and values
    [row_ptrs[d][i] .. row_ptrs[d][i+1]) of slice number d, the values of the slices one after the other *)
Definition slice_arrays_ok (rows cols : nat) (rp ci : list nat) : Prop :=
  length rp = rows + 1 /\ nth 0 rp 0 = 0 /\ (forall i, i < rows -> nth i rp 0 <= nth (i + 1) rp 0) /\
  nth rows rp 0 = length ci /\ (forall k, k < length ci -> nth k ci 0 < cols).
Definition arrays_ok (shape : list nat) (rps cis : list (list nat)) : Prop :=
  2 <= length shape /\ length rps = prod (slices shape) /\ length cis = prod (slices shape) /\
  forall d, d < prod (slices shape) -> slice_arrays_ok (n_rows shape) (n_cols shape) (nth d rps []) (nth d cis []).
Definition values_before (cis : list (list nat)) (d : nat) : nat := list_sum (map (@length nat) (firstn d cis)).
Definition given_row (shape : list nat) (rps cis : list (list nat)) (value : list F) (p : list nat) (i : nat) : list (nat * F) :=
  let d := row_major (slices shape) p in
  map (fun k => (nth k (nth d cis []) 0, nth (values_before cis d + k) value f0))
    (seq (nth i (nth d rps []) 0) (nth (i + 1) (nth d rps []) 0 - nth i (nth d rps []) 0)).

Lemma fold_len_sum (cis : list (list nat)) n : fold_left (fun n c => n + length c) cis n = n + list_sum (map (@length nat) cis).
Proof. unfold list_sum. revert n. induction cis as [|c l IH]; intros n; cbn; [lia|]. rewrite IH. cbn. lia. Qed.
Lemma before_le (cis : list (list nat)) d : d < length cis ->
  values_before cis d + length (nth d cis []) <= list_sum (map (@length nat) cis).
Proof.
  unfold values_before, list_sum. revert d. induction cis as [|c l IH]; intros [|d] H; cbn in *; try lia. specialize (IH d ltac:(lia)). lia.
Qed.

Lemma built_ok (A : tcrs F) shape rps cis value : arrays_ok shape rps cis ->
  k_shape A = shape -> k_rps A = rps -> k_cis A = cis -> k_first A = 0 -> k_nnz A = list_sum (map (@length nat) cis) ->
  length (k_val A) = k_alloc A -> k_nnz A <= k_alloc A ->
  (forall k, k < k_nnz A -> nth k (k_val A) f0 = nth k value f0) ->
  tr_readable A /\ forall p i, inside (slices shape) p -> i < n_rows shape -> tr_row A p i = given_row shape rps cis value p i.
Proof.
  intros (S1 & S2 & S3 & S4) <- <- <- HF HN HL HA HV.
  assert (OK : forall d, d < prod (slices (k_shape A)) -> crs_ok (tr_slice A d)).
  { intros d Hd. destruct (S4 d Hd) as (P1 & P2 & P3 & P4 & P5).
    assert (FR : firstn (n_rows (k_shape A) + 1) (nth d (k_rps A) []) = nth d (k_rps A) []) by (apply firstn_all2; lia).
    pose proof (@before_le (k_cis A) d ltac:(lia)) as HB. unfold values_before in HB.
    unfold crs_ok, tr_slice, rpn, cin. cbn [m_rp m_row m_col m_nnz m_ci m_val m_alloc m_first]. rewrite FR.
    repeat split; auto. rewrite HF. unfold tr_off. lia. }
  split.
  - split; auto. split; auto. split; auto. split.
    + unfold tr_off. rewrite firstn_all. auto.
    + intros d Hd. now apply crs_ok_readable, OK.
  - intros p i Hp Hi. unfold tr_row, given_row, crs_row. set (d := row_major (slices (k_shape A)) p).
    assert (Hd : d < prod (slices (k_shape A))) by now apply row_major_lt.
    destruct (S4 d Hd) as (P1 & P2 & P3 & P4 & P5).
    assert (FR : firstn (n_rows (k_shape A) + 1) (nth d (k_rps A) []) = nth d (k_rps A) []) by (apply firstn_all2; lia).
    unfold rpn, cin, vln, tr_slice. cbn [m_rp m_ci m_val m_first]. rewrite FR. apply map_ext_in. intros k Hk. apply in_seq in Hk.
    assert (HM : nth (i + 1) (nth d (k_rps A) []) 0 <= length (nth d (k_cis A) [])).
    { rewrite <- P4. assert (G : forall n, i + 1 + n <= n_rows (k_shape A) -> nth (i + 1) (nth d (k_rps A) []) 0 <= nth (i + 1 + n) (nth d (k_rps A) []) 0).
      { induction n as [|n IH]; intros Hn; [now rewrite Nat.add_0_r|]. etransitivity; [apply IH; lia|].
        replace (i + 1 + S n) with (i + 1 + n + 1) by lia. apply P3. lia. }
      replace (n_rows (k_shape A)) with (i + 1 + (n_rows (k_shape A) - (i + 1))) by lia. apply G. lia. }
    f_equal. pose proof (@before_le (k_cis A) d ltac:(lia)). rewrite HF. unfold tr_off, values_before in *. cbn [Nat.add]. apply HV. lia.
Qed.

Theorem C102_crs_of_arrays (shape : list nat) (rps cis : list (list nat)) (value : list F) : arrays_ok shape rps cis ->
  list_sum (map (@length nat) cis) <= length value ->
  exists A, tr_of_arrays shape rps cis value = Ok A /\ k_shape A = shape /\ tr_readable A /\
    forall p i, inside (slices shape) p -> i < n_rows shape -> tr_row A p i = given_row shape rps cis value p i.
Proof.
  intros HA HV. unfold tr_of_arrays. rewrite fold_len_sum. cbn [Nat.add].
  destruct (@tr_resize_ok F SF (mkTR shape rps cis [] 0 0 0 true None) (list_sum (map (@length nat) cis)) f0)
    as (t & E & L1 & L2 & F1 & N1 & O1 & Sh & Rp & Ci & Hh); auto. rewrite E. cbn [bind]. rewrite N1.
  unfold vcopyA. rewrite (@Loops.copy_loop0 F f0) by lia. cbn [bind]. eexists; split; [reflexivity|]. cbn in Sh, Rp, Ci. split; auto.
  apply built_ok; cbn; auto; rewrite ?app_length, ?firstn_length, ?skipn_length; try lia.
  intros k Hk. rewrite N1 in Hk. rewrite app_nth1 by (rewrite firstn_length; lia). apply nth_firstn. lia.
Qed.

(** tensor_CRS::set_ptr(shape, row_ptrs, col_inds, value): the same, whatever the object held before, and the
    structure hash is set (so the comparing operations may be called) *)
Theorem C102_crs_set_ptr (t : tcrs F) (shape : list nat) (rps cis : list (list nat)) (value : list F) : arrays_ok shape rps cis ->
  list_sum (map (@length nat) cis) = length value ->
  length (k_val t) = k_alloc t -> k_nnz t <= k_alloc t -> k_first t = 0 ->
  exists A, tr_set_ptr t shape rps cis value = Ok A /\ k_shape A = shape /\ k_hash A <> None /\ tr_readable A /\
    forall p i, inside (slices shape) p -> i < n_rows shape -> tr_row A p i = given_row shape rps cis value p i.
Proof.
  intros HA HV H1 H2 H3. unfold tr_set_ptr.
  destruct (@tr_resize_ok F SF (k_set_own (k_set_st t rps cis)) (length value) f0)
    as (t1 & E & L1 & L2 & F1 & N1 & O1 & Sh & Rp & Ci & Hh); auto. rewrite E. cbn [bind]. rewrite N1, F1. cbn [Nat.add].
  rewrite (@Loops.copy_loop0 F f0) by lia. cbn [bind]. cbn in Rp, Ci.
  destruct (@tr_hash_ok F SC (k_set_shape (k_set_val t1 (firstn (length value) value ++ skipn (length value) (k_val t1))) shape)) as (h & Eh).
  { cbn. destruct HA as (HA & _). intros ->. cbn in HA. lia. }
  { cbn. rewrite Rp, Ci. destruct HA as (_ & HA1 & HA2 & _). congruence. }
  rewrite Eh. eexists; split; [reflexivity|]. split; auto. split; [discriminate|].
  apply built_ok; cbn; auto; rewrite ?app_length, ?firstn_length, ?skipn_length; try lia.
  intros k Hk. rewrite N1 in Hk. rewrite app_nth1 by (rewrite firstn_length; lia). apply nth_firstn. lia.
Qed.
End C102.
Print Assumptions C102_coo_of_arrays.
Print Assumptions C102_dense_convert_partial.
Print Assumptions C102_dense_of_matrix_partial.
Print Assumptions C102_crs_of_arrays.
Print Assumptions C102_crs_set_ptr.

(** False of the code: converting a window copies the start of the buffer instead of the window. *)
Theorem C102_convert_window_refuted :
  (exists t s t' : tdense Z, td_ok s /\ td_convert t s = Ok t' /\ td_at s [0] = Ok 2%Z /\ td_at t' [0] = Ok 1%Z) /\
  (exists (t : tdense Z) (d : dense Z) (t' : tdense Z), dense_ok d /\ td_convert_dense t d = Ok t' /\
     dense_at d 0 0 = Ok 2%Z /\ td_at t' [0;0] = Ok 1%Z).
Proof.
  split.
  - exists (mkTD [] [] 0 0 0 true), (mkTD [1] [1;2]%Z 1 1 2 false). eexists. split; [repeat split; cbn; lia|].
    split; [vm_compute; reflexivity|]. split; vm_compute; reflexivity.
  - exists (mkTD [] [] 0 0 0 true), (mkDense 1 1 [1;2]%Z 1 1 2 true). eexists. split; [repeat split; cbn; lia|].
    split; [vm_compute; reflexivity|]. split; vm_compute; reflexivity.
Qed.
Print Assumptions C102_convert_window_refuted.

Local Existing Instance CrsMiscProof.one_thread.
Example C102_example : exists q A A' t',
  tc_of_arrays (SF := Zscalar) [2;2] [[0;1];[1;0]] [5;7]%Z = Ok q /\ tc_at (SF := Zscalar) q [1;0] = Ok 7%Z /\
  arrays_ok [2;2;2] [[0;1;1];[0;0;2]] [[1];[0;1]] /\
  tr_of_arrays (SF := Zscalar) [2;2;2] [[0;1;1];[0;0;2]] [[1];[0;1]] [5;6;7]%Z = Ok A /\
  tr_row (SF := Zscalar) A [1] 1 = [(0, 6%Z); (1, 7%Z)] /\
  tr_set_ptr (SF := Zscalar) tr_empty [2;2;2] [[0;1;1];[0;0;2]] [[1];[0;1]] [5;6;7]%Z = Ok A' /\
  tr_row (SF := Zscalar) A' [0] 0 = [(1, 5%Z)] /\
  td_convert_dense (SF := Zscalar) (mkTD [] [] 0 0 0 true) (mkDense 1 2 [1;2]%Z 0 2 2 true) = Ok t' /\ td_at t' [0;1] = Ok 2%Z.
Proof.
  do 4 eexists. do 2 (split; [vm_compute; reflexivity|]). split.
  { split; [cbn; lia|]. split; [reflexivity|]. split; [reflexivity|]. intros [|[|d]] Hd; cbn in Hd; try lia.
    - repeat split; cbn; auto; intros [|[|i]] Hi; cbn in *; lia.
    - repeat split; cbn; auto; intros [|[|i]] Hi; cbn in *; lia. }
  do 5 (split; [vm_compute; reflexivity|]). vm_compute; reflexivity.
Qed.

(** ** C33: blas::copy and COO::convert of a LinearOperator *)
Section C33.
Context {F : Type} {SF : Scalar F} {SC : Schedule}.

(** blas::copy(A, C): for every function that is set in A, C computes what A computes (operators of equal size);
    nothing else changes.  Missing from the full claim: functions that A does not have (C keeps its own). *)
Theorem C33_blas_copy_partial (w w' : world F) a c A C C' :
  w_op w a = Some A -> w_op w c = Some C -> ~ built_on w a c -> l_row C = l_row A -> l_col C = l_col A ->
  op_blas_copy A C = Ok C' -> w' = set_op w c (Some C') ->
  forall t p q g, computes w t a p q g -> computes w' t c p q g.
Proof.
  intros EA EC Na Hr Hc HC -> t p q g H.
  apply (@C33_assign_partial F SF SC w (set_op w c (Some C')) a c A C EA EC Na); auto.
  unfold op_blas_copy in HC. apply bind_ok in HC. destruct HC as (u & _ & HC). injection HC as <-.
  unfold op_assign. rewrite <- Hr, <- Hc. do 2 f_equal. destruct C; reflexivity.
Qed.
Theorem C33_blas_copy_runs (A C : linop F) : l_row C = l_row A -> l_col C = l_col A -> exists C', op_blas_copy A C = Ok C'.
Proof.
  intros H1 H2. unfold op_blas_copy, op_same_size. rewrite H1, H2, !Nat.eqb_refl. cbn. eauto.
Qed.
(** both dimensions different: refused.  (One dimension different is not: see C33's compare theorems.) *)
Theorem C33_blas_copy_sizes (A C : linop F) : l_row C <> l_row A -> l_col C <> l_col A -> op_blas_copy A C = Abort.
Proof.
  intros H1 H2. unfold op_blas_copy, op_same_size.
  destruct (Nat.eqb_spec (l_row A) (l_row C)); [congruence|]. destruct (Nat.eqb_spec (l_col A) (l_col C)); [congruence|]. reflexivity.
Qed.

(** COO::convert(LinearOperator): exactly the non-zero entries of the matrix of the operator, row by row *)
Theorem C33_to_coo (w : world F) a A (g : list F -> list F) (c : coo F) :
  w_op w a = Some A -> computes w false a (l_col A) (l_row A) g -> coo_ok c ->
  exists c' n, (forall m, n <= m -> coo_convert_op m w c A = Ok c') /\ coo_ok c' /\ c_row c' = l_row A /\ c_col c' = l_col A /\
    StronglySorted pos_lt (map fst (coo_entries c')) /\
    forall i j v, In (i, j, v) (coo_entries c') <->
      i < l_row A /\ j < l_col A /\ v = fn (g (unit_vec (l_col A) j)) i /\ feqb v f0 = false.
Proof.
  intros EA Hc W.
  set (D := mkDense (l_row A) (l_col A) (repeat f0 (l_row A * l_col A)) 0 (l_row A * l_col A) (l_row A * l_col A) true).
  assert (WD : dense_ok D) by (unfold dense_ok, D; cbn; rewrite repeat_length; auto).
  destruct (@to_dense_ok F SF SC w a A g D) as (d' & n & E & Wd & R1 & R2 & HF); auto.
  destruct (@C07_coo_of_dense F SF c d' W Wd) as (c' & Ec & Wc & Rr & Rc & _ & HS & HI & _).
  exists c', n. split; [|split; auto; split; [congruence|split; [congruence|split; auto]]].
  - intros m Hm. unfold coo_convert_op. rewrite dense_new_ok. cbn [bind]. fold D. rewrite (E m Hm). exact Ec.
  - assert (G : forall i j, i < d_row d' -> j < d_col d' -> dense_at d' i j = Ok (dense_fn d' i j)).
    { intros i j Hi Hj. destruct Wd as (D1 & D2 & D3). assert (d_col d' * i + j < d_nnz d') by (rewrite D2; nia).
      unfold dense_at, dense_at1.
      rewrite (proj2 (Nat.ltb_lt _ _) Hi), (proj2 (Nat.ltb_lt _ _) Hj). cbn [assert_ bind].
      rewrite (proj2 (Nat.ltb_lt (d_col d' * i + j) (d_nnz d'))) by auto. cbn [assert_ bind].
      rewrite (proj2 (Nat.ltb_lt (d_first d' + (d_col d' * i + j)) (d_alloc d'))) by lia. cbn [assert_ bind].
      unfold dense_fn. rewrite (@rd_lt F _ _ f0) by lia. try reflexivity; f_equal; f_equal; lia. }
    intros i j v. rewrite HI, R1, R2. split.
    + intros (Hi & Hj & Hv & Hz). rewrite G in Hv by lia. injection Hv as <-. rewrite HF in * by auto. auto.
    + intros (Hi & Hj & -> & Hz). rewrite G by lia. rewrite HF by auto. auto.
Qed.
End C33.
Print Assumptions C33_blas_copy_partial.
Print Assumptions C33_blas_copy_runs.
Print Assumptions C33_blas_copy_sizes.
Print Assumptions C33_to_coo.
