(** * PropertiesTensorBlas: C29 (diagonal operations), C42 (tensor products), C43 (moves), C55 (row / column
    broadcast on tensors), C56 (element-wise operations on tensors). *)
From Verif Require Import Base Scalar Spec SumFacts Mem MemSpec ParProof KernelProof VecModel VecSpec DenseBlasModel DenseSpec
  DenseBlasProof DenseProof PropertiesDense TensorModel TensorSpec TensorProof ReshapeProof TensorCooProof
  TensorBlasModel TensorBlasSpec TensorBlasProof.
Set Implicit Arguments.

(** ** C29: tensor diagonal operations *)
Section C29.
Context {F : Type} {SF : Scalar F}.

(** For shapes that read the same backwards (all cubes, in particular) exactly the elements with equal
    coordinates are updated; every rank; any scalar type, bit-exact; every schedule.
    Missing from the full claim: shapes such as 2 x 3, where it is false (C29_refuted). *)
Theorem C29_tensor_diag_partial (op : F -> F -> F) (A : targ) (alpha : F) (x : arg) (m : mem F) :
  rev (h_shape A) = h_shape A -> tens_ok m A ->
  tcomputes (k_tdiag_s op A alpha) m A (fun pos => if on_diag pos then op (tmel m A pos) alpha else tmel m A pos) /\
  (h_shape A <> [] -> arg_ok m x -> tvapart x A -> a_len x = min_dim (h_shape A) ->
   tcomputes (k_tdiag_v op A x) m A (fun pos => if on_diag pos then op (tmel m A pos) (el m x (nth 0 pos 0)) else tmel m A pos)).
Proof.
  intros HR HA. split.
  - destruct (tdiag_s_ok op alpha HA) as (m' & K1 & K2 & K3 & K4 & K5). exists m'. split; auto. split; auto. split; auto. split; auto.
    intros pos Hp. rewrite K4 by auto. pose proof (diag_hit_sym HR Hp) as D.
    destruct (diag_hit _ _) as [i|]; [destruct D as [-> _]|rewrite D]; reflexivity.
  - intros Hs Hx Hv HL. destruct (@tdiag_v_ok F SF op A x m) as (m' & K1 & K2 & K3 & K4 & K5); auto.
    exists m'. split; auto. split; auto. split; auto. split; auto.
    intros pos Hp. rewrite K4 by auto. pose proof (diag_hit_sym HR Hp) as D.
    destruct (diag_hit _ _) as [i|]; [destruct D as [-> ->]|rewrite D]; auto.
Qed.

(** Any shape: the call never touches anything outside the tensor, updates exactly [min_dim] elements and
    leaves the others alone (their flat numbers are multiples of one stride); every schedule. *)
Theorem C29_tensor_diag_safe_partial (op : F -> F -> F) (A : targ) (alpha : F) (m : mem F) : tens_ok m A ->
  exists (hit : list nat -> bool) (step : nat),
    tcomputes (k_tdiag_s op A alpha) m A (fun pos => if hit pos then op (tmel m A pos) alpha else tmel m A pos) /\
    forall pos, inside (h_shape A) pos ->
      (hit pos = true <-> exists i, i < min_dim (h_shape A) /\ row_major (h_shape A) pos = step * i).
Proof.
  intros HA.
  exists (fun pos => match diag_hit (h_shape A) (row_major (h_shape A) pos) with Some _ => true | None => false end),
    (stride (rev (h_shape A))). split.
  - destruct (tdiag_s_ok op alpha HA) as (m' & K1 & K2 & K3 & K4 & K5). exists m'. split; auto. split; auto. split; auto. split; auto.
    intros pos Hp. rewrite K4 by auto. destruct (diag_hit _ _); reflexivity.
  - intros pos Hp. destruct (diag_hit (h_shape A) (row_major (h_shape A) pos)) as [i|] eqn:E.
    + apply diag_hit_inv in E. destruct E as [E1 E2]. split; [eauto|auto].
    + split; [discriminate|]. intros (i & Hi & Ei). exfalso. apply (@diag_hit_none _ _ i E Hi). auto.
Qed.
Theorem C29_sizes (op : F -> F -> F) (A : targ) (x : arg) (m : mem F) : a_len x <> min_dim (h_shape A) ->
  kernel_seq (k_tdiag_v op A x) m = Abort.
Proof.
  intros H. unfold k_tdiag_v, kernel_seq. rewrite tdiag_scan_eq, tdiag_len. cbn [k_assert].
  destruct (Nat.eqb_spec (min_dim (h_shape A)) (a_len x)); [congruence|reflexivity].
Qed.
End C29.
Print Assumptions C29_tensor_diag_partial.
Print Assumptions C29_tensor_diag_safe_partial.
Print Assumptions C29_sizes.

(** False of the code: on a 2 x 3 tensor diag_add changes A[1][0] and not A[1][1] (the stride is computed
    from the dimensions in the wrong order). *)
Theorem C29_refuted : exists (A : targ) (m m' : mem Z), tens_ok m A /\ h_shape A = [2;3] /\
  kernel_seq (k_tdiag_add A 10%Z) m = Ok m' /\
  tmel m' A [1;1] = tmel m A [1;1] /\ tmel m' A [1;0] = Z.add (tmel m A [1;0]) 10.
Proof.
  exists (mkTarg (0,0) 0 [2;3]), [[1;2;3;4;5;6]%Z], [[11;2;3;14;5;6]%Z].
  split; [apply tens_window; intros i Hi; cbn in *; unfold valid; cbn; lia|].
  repeat split; vm_compute; reflexivity.
Qed.
Print Assumptions C29_refuted.

Example C29_example :
  let A := mkTarg (0,0) 1 [2;2;2] in let x := mkArg (1,0) 2 in let m := [[9;1;2;3;4;5;6;7;8]; [10;20]]%Z in
  rev (h_shape A) = h_shape A /\ tens_ok m A /\ arg_ok m x /\ tvapart x A /\ a_len x = min_dim (h_shape A) /\
  kernel_seq (k_tdiag_sub_v A x) m = Ok [[9;-9;2;3;4;5;6;7;-12]; [10;20]]%Z.
Proof.
  cbn zeta. split; [reflexivity|]. split; [apply tens_window; intros i Hi; cbn in *; unfold valid; cbn; lia|].
  split; [intros i Hi; cbn in *; unfold valid; cbn; lia|]. split; [intros k q _ _ E; cbn in E; discriminate|].
  split; [reflexivity|]. vm_compute. reflexivity.
Qed.

(** ** C42: tensor products *)
Section C42.
Context {F : Type} {SF : Scalar F}.
Hypothesis Hex : exact SF.
Local Open Scope F_scope.

Lemma int_sized_snoc s k : int_sized (s ++ [k]) -> (0 < k)%nat ->
  (Z.of_nat (prod s * k) < 2 ^ 31)%Z /\ (Z.of_nat k < 2 ^ 31)%Z /\ (Z.of_nat (prod s) < 2 ^ 31)%Z.
Proof.
  intros [H1 H2] Hk. rewrite prod_app in H1. cbn [prod] in H1. rewrite Nat.mul_1_r in H1. split; auto.
  apply Forall_app in H2. destruct H2 as [_ H2]. inversion H2; subst. split; auto.
  assert (prod s <= prod s * k)%nat by nia. lia.
Qed.
Lemma int_sized_cons k t : int_sized (k :: t) -> (0 < k)%nat ->
  (Z.of_nat (k * prod t) < 2 ^ 31)%Z /\ (Z.of_nat k < 2 ^ 31)%Z /\ (Z.of_nat (prod t) < 2 ^ 31)%Z.
Proof.
  intros [H1 H2] Hk. cbn [prod] in H1. split; auto. inversion H2; subst. split; auto.
  assert (prod t <= k * prod t)%nat by nia. lia.
Qed.
Lemma as_mat_apart A C r c r' c' : prod (h_shape A) = (r * c)%nat -> prod (h_shape C) = (r' * c')%nat -> tapart A C ->
  mapart (as_mat A r c) (as_mat C r' c').
Proof. intros E1 E2 H. apply mapart_w. apply tapart_w in H. rewrite E1, E2 in H. exact H. Qed.
Lemma as_mat_apart_m B C r' c' : prod (h_shape C) = (r' * c')%nat -> tmapart B C -> mapart B (as_mat C r' c').
Proof. intros E2 H. apply mapart_w. apply tmapart_w in H. rewrite E2 in H. exact H. Qed.
Lemma wapart_sym p n q k : wapart p n q k -> wapart q k p n.
Proof. intros H i j Hi Hj E. symmetry in E. revert E. now apply H. Qed.

Lemma row_major_snoc s k p l : length p = length s -> row_major (s ++ [k]) (p ++ [l]) = (row_major s p * k + l)%nat.
Proof. intros H. rewrite row_major_app by auto. cbn [prod row_major]. lia. Qed.

(** y[p] = a * sum_l A[p,l] x[l] + b * y[p] *)
Theorem C42_tensvec_partial (a b : F) (A : targ) (x : arg) (y : targ) (s : list nat) (k : nat) (m : mem F) :
  h_shape A = s ++ [k] -> h_shape y = s -> a_len x = k -> (0 < k)%nat -> int_sized (s ++ [k]) ->
  tens_ok m A -> arg_ok m x -> tens_ok m y -> tapart A y -> tvapart x y ->
  exists kern, k_tensvec_ab a A x b y = Ok kern /\
    tcomputes kern m y (fun pos => a * sum_n k (fun l => tmel m A (pos ++ [l]) * el m x l) + b * tmel m y pos).
Proof.
  intros SA Sy Lx Hk Hs HA Hx Hy HAy Hxy. destruct (int_sized_snoc _ Hs Hk) as (I1 & I2 & I3).
  assert (PA : prod (h_shape A) = (prod s * k)%nat) by (rewrite SA, prod_app; cbn; lia).
  exists (k_matvec_ab a (as_mat A (prod s) k) x b (mkArg (h_begin y) (prod s)) false). split.
  - unfold k_tensvec_ab, move_dense2, move_vector1. rewrite SA, last_dim_app. cbn [bind]. rewrite !h_nnz_prod.
    rewrite (@move_dims_col (prod (h_shape A)) (prod s) k) by (auto; rewrite PA; auto). cbn [bind].
    rewrite Sy. rewrite Z.mod_small.
    2:{ cbn. rewrite int_of_sm by auto. lia. }
    change (-1 <? 0)%Z with true. cbv iota. rewrite int_of_sm by auto. rewrite Z.eqb_refl. reflexivity.
  - apply tens_window in Hy. rewrite Sy in Hy.
    apply (@computes_tensor F SF _ m y (fun i => a * mv k (mel m (as_mat A (prod s) k)) (el m x) i
       + b * el m (mkArg (h_begin y) (prod s)) i) _ (prod s)).
    + now rewrite Sy.
    + apply (C46_dense_matvec_ab Hex a b (as_mat A (prod s) k) x (mkArg (h_begin y) (prod s))); auto.
      * now apply as_mat_ok.
      * split.
        -- apply vapart_w. apply wapart_sym. apply tapart_w in HAy. rewrite PA, Sy in HAy. exact HAy.
        -- apply tvapart_w in Hxy. rewrite Sy in Hxy. exact Hxy.
    + intros pos Hp. rewrite Sy in *. f_equal; [f_equal|].
      * unfold mv. apply sum_ext. intros l Hl. f_equal. apply as_mat_el. rewrite SA. apply row_major_snoc.
        now apply inside_length.
      * unfold el, tmel, tslot. cbn. now rewrite Sy.
Qed.

Lemma split_flat s t pos i j : inside (s ++ t) pos -> row_major (s ++ t) pos = (i * prod t + j)%nat -> (j < prod t)%nat ->
  i = row_major s (firstn (length s) pos) /\ j = row_major t (skipn (length s) pos).
Proof.
  intros Hp E Hj. destruct (inside_split _ _ Hp) as [H1 H2]. rewrite <- (firstn_skipn (length s) pos) in E.
  rewrite row_major_app in E by (apply inside_length; auto). pose proof (row_major_lt H2).
  clear - E Hj H. generalize dependent (row_major s (firstn (length s) pos)). generalize dependent (row_major t (skipn (length s) pos)).
  intros b Hb a E. assert (a = i) by nia. subst. split; [auto|lia].
Qed.

(** C[p,j] = a * sum_l A[p,l] B[l,j] + b * C[p,j] *)
Theorem C42_tensmat_partial (a b : F) (A : targ) (B : marg) (C : targ) (s : list nat) (k n : nat) (m : mem F) :
  h_shape A = s ++ [k] -> g_row B = k -> g_col B = n -> h_shape C = s ++ [n] -> (0 < k)%nat ->
  int_sized (s ++ [k]) -> int_sized (s ++ [n]) ->
  tens_ok m A -> mat_ok m B -> tens_ok m C -> tapart A C -> tmapart B C ->
  exists kern, k_tensmat_ab a A B b C = Ok kern /\
    tcomputes kern m C (fun pos => let p := firstn (length s) pos in let j := nth (length s) pos 0%nat in
      a * sum_n k (fun l => tmel m A (p ++ [l]) * mel m B l j) + b * tmel m C pos).
Proof.
  intros SA RB CB SC Hk Hs Hs' HA HB HC HAC HBC. destruct (int_sized_snoc _ Hs Hk) as (I1 & I2 & I3).
  assert (PA : prod (h_shape A) = (prod s * k)%nat) by (rewrite SA, prod_app; cbn; lia).
  assert (PC : prod (h_shape C) = (prod s * n)%nat) by (rewrite SC, prod_app; cbn; lia).
  assert (J : (Z.of_nat (prod s * n) < 2 ^ 31)%Z /\ (Z.of_nat n < 2 ^ 31)%Z).
  { destruct Hs' as [J1 J2]. rewrite <- SC, PC in J1. split; auto. apply Forall_app in J2. destruct J2 as [_ J2]. inversion J2; auto. }
  destruct J as [J1 J2].
  exists (k_matmul_ab a (as_mat A (prod s) k) B b (as_mat C (prod s) n)). split.
  - unfold k_tensmat_ab, move_dense2. rewrite SA, last_dim_app. cbn [bind]. rewrite !h_nnz_prod.
    rewrite (@move_dims_col (prod (h_shape A)) (prod s) k) by (auto; rewrite PA; auto). cbn [bind g_row].
    rewrite CB. rewrite (@move_dims_both (prod (h_shape C)) (prod s) n) by (auto; rewrite PC; auto). reflexivity.
  - eapply (@mcomputes_tensor F SF _ m C (prod s) n _ _ PC).
    + apply (C46_dense_matmul_ab Hex a b (as_mat A (prod s) k) B (as_mat C (prod s) n)); auto.
      * now apply as_mat_ok.
      * now apply as_mat_ok.
      * now apply as_mat_apart.
      * now apply as_mat_apart_m.
    + intros pos i j Hp Er Hi Hj. cbv beta zeta.
      rewrite SC in Hp, Er. assert (Hj' : (j < prod [n])%nat) by (cbn; lia).
      assert (Er' : row_major (s ++ [n]) pos = (i * prod [n] + j)%nat) by (rewrite Er; cbn; lia).
      destruct (@split_flat s [n] pos i j Hp Er' Hj') as [Ei Ej]. destruct (inside_split _ _ Hp) as [Hp1 Hp2].
      assert (Ej' : j = nth (length s) pos 0%nat).
      { rewrite Ej. rewrite <- (Nat.add_0_r (length s)) at 2. rewrite <- nth_skipn. pose proof (inside_length Hp2) as L2.
        destruct (skipn (length s) pos) as [|z [|]]; try discriminate. cbn. lia. }
      rewrite <- Ej'. unfold mm. cbn [as_mat g_col]. f_equal; [f_equal|].
      * apply sum_ext. intros l Hl. f_equal. apply as_mat_el. rewrite SA, Ei. apply row_major_snoc. now apply inside_length.
      * f_equal. apply as_mat_el. rewrite SC. exact Er.
Qed.

(** C[i,q] = a * sum_l A[i,l] B[l,q] + b * C[i,q] *)
Theorem C42_mattens_partial (a b : F) (A : marg) (B C : targ) (t : list nat) (r k : nat) (m : mem F) :
  g_row A = r -> g_col A = k -> h_shape B = k :: t -> h_shape C = r :: t -> (0 < k)%nat ->
  int_sized (k :: t) -> int_sized (r :: t) ->
  mat_ok m A -> tens_ok m B -> tens_ok m C -> tmapart A C -> tapart B C ->
  exists kern, k_mattens_ab a A B b C = Ok kern /\
    tcomputes kern m C (fun pos => let i := nth 0 pos 0%nat in let q := skipn 1 pos in
      a * sum_n k (fun l => mel m A i l * tmel m B (l :: q)) + b * tmel m C pos).
Proof.
  intros RA CA SB SC Hk Hs Hs' HA HB HC HAC HBC. destruct (int_sized_cons Hs Hk) as (I1 & I2 & I3).
  assert (PB : prod (h_shape B) = (k * prod t)%nat) by (now rewrite SB).
  assert (PC : prod (h_shape C) = (r * prod t)%nat) by (now rewrite SC).
  destruct Hs' as [J1 J2]. cbn [prod] in J1. inversion J2 as [|? ? J3 J4]; subst x l.
  exists (k_matmul_ab a A (as_mat B k (prod t)) b (as_mat C r (prod t))). split.
  - unfold k_mattens_ab, move_dense2, first_dim. rewrite SB. cbn [rd nth_error bind]. rewrite !h_nnz_prod.
    change (rd (k :: t) 0) with (Ok k). cbn [bind].
    rewrite (@move_dims_row (prod (h_shape B)) k (prod t)) by (auto; rewrite PB; auto). cbn [bind g_col].
    rewrite RA. rewrite (@move_dims_both (prod (h_shape C)) r (prod t)) by (auto; rewrite PC; auto). reflexivity.
  - eapply (@mcomputes_tensor F SF _ m C r (prod t) _ _ PC).
    + apply (C46_dense_matmul_ab Hex a b A (as_mat B k (prod t)) (as_mat C r (prod t))); auto.
      * now apply as_mat_ok.
      * now apply as_mat_ok.
      * now apply as_mat_apart_m.
      * now apply as_mat_apart.
    + intros pos i j Hp Er Hi Hj. cbv beta zeta. rewrite SC in Hp, Er.
      destruct (@split_flat [r] t pos i j Hp Er Hj) as [Ei Ej]. destruct (inside_split [r] t Hp) as [Hp1 Hp2]. cbn [length] in *.
      assert (Ei' : i = nth 0 pos 0%nat).
      { rewrite Ei. destruct pos as [|z pos]; [inversion Hp|]. cbn. lia. }
      rewrite <- Ei', CA. unfold mm. f_equal; [f_equal|].
      * apply sum_ext. intros l Hl. f_equal. apply as_mat_el. rewrite SB. cbn [row_major]. now rewrite Ej.
      * f_equal. apply as_mat_el. rewrite SC. exact Er.
Qed.

(** C[p,q] = a * sum_l A[p,l] B[l,q] + b * C[p,q] *)
Theorem C42_tensmul_partial (a b : F) (A B C : targ) (s t : list nat) (k : nat) (m : mem F) :
  h_shape A = s ++ [k] -> h_shape B = k :: t -> h_shape C = s ++ t -> (0 < k)%nat ->
  int_sized (s ++ [k]) -> int_sized (k :: t) -> int_sized (s ++ t) ->
  tens_ok m A -> tens_ok m B -> tens_ok m C -> tapart A C -> tapart B C ->
  exists kern, k_tensmul_ab a A B b C = Ok kern /\
    tcomputes kern m C (fun pos => let p := firstn (length s) pos in let q := skipn (length s) pos in
      a * sum_n k (fun l => tmel m A (p ++ [l]) * tmel m B (l :: q)) + b * tmel m C pos).
Proof.
  intros SA SB SC Hk Hs Hs1 Hs2 HA HB HC HAC HBC. destruct (int_sized_snoc _ Hs Hk) as (I1 & I2 & I3).
  destruct (int_sized_cons Hs1 Hk) as (J1 & _ & J3).
  assert (PA : prod (h_shape A) = (prod s * k)%nat) by (rewrite SA, prod_app; cbn; lia).
  assert (PB : prod (h_shape B) = (k * prod t)%nat) by (now rewrite SB).
  assert (PC : prod (h_shape C) = (prod s * prod t)%nat) by (now rewrite SC, prod_app).
  destruct Hs2 as [K1 _]. rewrite prod_app in K1.
  exists (k_matmul_ab a (as_mat A (prod s) k) (as_mat B k (prod t)) b (as_mat C (prod s) (prod t))). split.
  - unfold k_tensmul_ab, move_dense2, first_dim. rewrite SA, last_dim_app. cbn [bind]. rewrite !h_nnz_prod.
    rewrite (@move_dims_col (prod (h_shape A)) (prod s) k) by (auto; rewrite PA; auto). cbn [bind g_row].
    rewrite SB at 1. change (rd (k :: t) 0) with (Ok k). cbn [bind].
    rewrite (@move_dims_row (prod (h_shape B)) k (prod t)) by (auto; rewrite PB; auto). cbn [bind g_col].
    rewrite (@move_dims_both (prod (h_shape C)) (prod s) (prod t)) by (auto; rewrite PC; auto). reflexivity.
  - eapply (@mcomputes_tensor F SF _ m C (prod s) (prod t) _ _ PC).
    + apply (C46_dense_matmul_ab Hex a b (as_mat A (prod s) k) (as_mat B k (prod t)) (as_mat C (prod s) (prod t))); auto;
        try (now apply as_mat_ok); now apply as_mat_apart.
    + intros pos i j Hp Er Hi Hj. cbv beta zeta. rewrite SC in Hp, Er.
      destruct (@split_flat s t pos i j Hp Er Hj) as [Ei Ej]. destruct (inside_split s t Hp) as [Hp1 Hp2].
      unfold mm. cbn [as_mat g_col]. f_equal; [f_equal|].
      * apply sum_ext. intros l Hl. f_equal.
        -- apply as_mat_el. rewrite SA, Ei. apply row_major_snoc. now apply inside_length.
        -- apply as_mat_el. rewrite SB. cbn [row_major]. now rewrite Ej.
      * f_equal. apply as_mat_el. rewrite SC. exact Er.
Qed.
End C42.
Print Assumptions C42_tensvec_partial.
Print Assumptions C42_tensmat_partial.
Print Assumptions C42_mattens_partial.
Print Assumptions C42_tensmul_partial.

(** sizes that do not fit are rejected before anything is written (element counts in the int range) *)
Theorem C42_sizes {F} {SF : Scalar F} (a b : F) (A : targ) (x : arg) (B : marg) (T C : targ) (s t : list nat) (k : nat) (m : mem F) :
  h_shape A = s ++ [k] -> h_shape T = k :: t -> 0 < k ->
  int_sized (s ++ [k]) -> int_sized (k :: t) -> int_sized (h_shape C) ->
  (a_len x <> k \/ prod (h_shape C) <> prod s -> exists kern, k_tensvec_ab a A x b C = Ok kern /\ kernel_seq kern m = Abort) /\
  ((Z.of_nat (prod s * g_col B) < 2 ^ 31)%Z -> (Z.of_nat (g_col B) < 2 ^ 31)%Z ->
   (prod (h_shape C) <> prod s * g_col B -> k_tensmat_ab a A B b C = Throw) /\
   (prod (h_shape C) = prod s * g_col B -> g_row B <> k -> exists kern, k_tensmat_ab a A B b C = Ok kern /\ kernel_seq kern m = Abort)) /\
  ((Z.of_nat (g_row B * prod t) < 2 ^ 31)%Z -> (Z.of_nat (g_row B) < 2 ^ 31)%Z ->
   (prod (h_shape C) <> g_row B * prod t -> k_mattens_ab a B T b C = Throw) /\
   (prod (h_shape C) = g_row B * prod t -> g_col B <> k -> exists kern, k_mattens_ab a B T b C = Ok kern /\ kernel_seq kern m = Abort)) /\
  ((Z.of_nat (prod s * prod t) < 2 ^ 31)%Z -> prod (h_shape C) <> prod s * prod t -> k_tensmul_ab a A T b C = Throw) /\
  (forall S k', h_shape S = k' :: t -> k' <> k -> 0 < k' -> int_sized (k' :: t) -> (Z.of_nat (prod s * prod t) < 2 ^ 31)%Z ->
   prod (h_shape C) = prod s * prod t ->
   exists kern, k_tensmul_ab a A S b C = Ok kern /\ kernel_seq kern m = Abort).
Proof.
  intros SA ST Hk Hs Ht HC. destruct (int_sized_snoc s Hs Hk) as (I1 & I2 & I3). destruct (int_sized_cons Ht Hk) as (J1 & _ & J3).
  destruct HC as [C1 _].
  assert (PA : prod (h_shape A) = prod s * k) by (rewrite SA, prod_app; cbn; lia).
  assert (PT : prod (h_shape T) = k * prod t) by (now rewrite ST).
  assert (MA : move_dense2 A (-1) (int_of k) = Ok (as_mat A (prod s) k)).
  { unfold move_dense2. rewrite !h_nnz_prod. now rewrite (@move_dims_col (prod (h_shape A)) (prod s) k) by (auto; rewrite PA; auto). }
  assert (MT : move_dense2 T (int_of k) (-1) = Ok (as_mat T k (prod t))).
  { unfold move_dense2. rewrite !h_nnz_prod. now rewrite (@move_dims_row (prod (h_shape T)) k (prod t)) by (auto; rewrite PT; auto). }
  assert (MC : forall r c, (Z.of_nat (r * c) < 2 ^ 31)%Z -> (Z.of_nat r < 2 ^ 31)%Z -> (Z.of_nat c < 2 ^ 31)%Z ->
    move_dense2 C (int_of r) (int_of c) = if prod (h_shape C) =? r * c then Ok (as_mat C r c) else Throw).
  { intros r c H1 H2 H3. unfold move_dense2. rewrite h_nnz_prod. rewrite !int_of_sm by auto.
    rewrite move_dims_outcome by lia.
    destruct (Z.ltb_spec (Z.of_nat r) 0); [lia|]. destruct (Z.ltb_spec (Z.of_nat c) 0); [lia|]. cbn [andb].
    destruct (Z.leb_spec (2 ^ 31) (Z.of_nat r * Z.of_nat c)); [lia|].
    destruct (Z.eqb_spec (Z.of_nat r * Z.of_nat c) (Z.of_nat (prod (h_shape C)))); destruct (Nat.eqb_spec (prod (h_shape C)) (r * c)); try lia; auto.
    now rewrite !Nat2Z.id. }
  split; [|split; [|split; [|split]]].
  - intros H. unfold k_tensvec_ab. rewrite SA, last_dim_app. cbn [bind]. rewrite MA. cbn [bind].
    unfold move_vector1. change (-1 <? 0)%Z with true. cbv iota. rewrite h_nnz_prod, int_of_sm by auto.
    rewrite Z.mod_small by lia. rewrite Z.eqb_refl. cbn [require_ bind]. eexists; split; [reflexivity|].
    exact (proj1 (@C46_dense_sizes F SF a b (as_mat A (prod s) k) B B x (mkArg (h_begin C) (prod (h_shape C))) m) H).
  - intros H1 H2. unfold k_tensmat_ab. rewrite SA, last_dim_app. cbn [bind]. rewrite MA. cbn [bind as_mat g_row].
    rewrite MC by auto. split.
    + intros H. destruct (Nat.eqb_spec (prod (h_shape C)) (prod s * g_col B)); [congruence|reflexivity].
    + intros H H'. rewrite H, Nat.eqb_refl. cbn [bind]. eexists; split; [reflexivity|].
      refine (proj2 (proj2 (@C46_dense_sizes F SF a b _ B _ x x m)) _). left. cbn. congruence.
  - intros H1 H2. unfold k_mattens_ab, first_dim. rewrite ST. change (rd (k :: t) 0) with (Ok k). cbn [bind]. rewrite MT. cbn [bind as_mat g_col].
    rewrite MC by auto. split.
    + intros H. destruct (Nat.eqb_spec (prod (h_shape C)) (g_row B * prod t)); [congruence|reflexivity].
    + intros H H'. rewrite H, Nat.eqb_refl. cbn [bind]. eexists; split; [reflexivity|].
      refine (proj2 (proj2 (@C46_dense_sizes F SF a b B _ _ x x m)) _). left. cbn. congruence.
  - intros H1 H. unfold k_tensmul_ab, first_dim. rewrite SA, last_dim_app. cbn [bind]. rewrite MA. cbn [bind]. rewrite ST.
    change (rd (k :: t) 0) with (Ok k). cbn [bind]. rewrite MT. cbn [bind as_mat g_col g_row]. rewrite MC by auto.
    destruct (Nat.eqb_spec (prod (h_shape C)) (prod s * prod t)); [congruence|reflexivity].
  - intros S k' SS Hkk Hk' Hk's H1 H. destruct (int_sized_cons Hk's Hk') as (L1 & L2 & L3).
    assert (PS : prod (h_shape S) = k' * prod t) by (now rewrite SS).
    unfold k_tensmul_ab, first_dim. rewrite SA, last_dim_app. cbn [bind]. rewrite MA. cbn [bind]. rewrite SS.
    change (rd (k' :: t) 0) with (Ok k'). cbn [bind].
    unfold move_dense2 at 1. rewrite (h_nnz_prod S), (@move_dims_row (prod (h_shape S)) k' (prod t)) by (auto; rewrite PS; auto).
    cbn [bind as_mat g_col g_row]. rewrite MC by auto.
    rewrite H, Nat.eqb_refl. cbn [bind]. eexists; split; [reflexivity|].
    refine (proj2 (proj2 (@C46_dense_sizes F SF a b _ _ _ x x m)) _). left. cbn. congruence.
Qed.
Print Assumptions C42_sizes.

(** False of the code: (1) contracting over an empty index divides by zero instead of giving b*C;
    (2) the shape of the result is checked by its element count only; (3) tensors with 2^31 elements or
    more overflow an int. *)
Theorem C42_empty_refuted {F} {SF : Scalar F} (a b : F) (A T C : targ) (B : marg) (x : arg) (s t : list nat) :
  h_shape A = s ++ [0] -> h_shape T = 0 :: t ->
  k_tensvec_ab a A x b C = UB /\ k_tensmat_ab a A B b C = UB /\ k_mattens_ab a B T b C = UB /\ k_tensmul_ab a A T b C = UB.
Proof.
  intros SA ST. unfold k_tensvec_ab, k_tensmat_ab, k_mattens_ab, k_tensmul_ab, first_dim.
  rewrite SA, ST, last_dim_app. change (rd (0 :: t) 0) with (Ok 0). cbn [bind].
  assert (M1 : move_dense2 A (-1) (int_of 0) = UB) by reflexivity.
  assert (M2 : move_dense2 T (int_of 0) (-1) = UB) by reflexivity. rewrite M1, M2. auto.
Qed.
Print Assumptions C42_empty_refuted.
Theorem C42_shape_refuted : exists (A : targ) (B : marg) (C : targ) (m m' : mem Z) kern,
  tens_ok m A /\ mat_ok m B /\ tens_ok m C /\ h_shape A = [2;1] /\ g_row B = 1 /\ g_col B = 3 /\ h_shape C = [3;2] /\
  k_tensmat A B C = Ok kern /\ kernel_seq kern m = Ok m' /\ m' <> m.
Proof.
  exists (mkTarg (0,0) 0 [2;1]), (mkMarg (1,0) 0 1 3), (mkTarg (2,0) 0 [3;2]),
    [[1;2]; [1;2;3]; [0;0;0;0;0;0]]%Z, [[1;2]; [1;2;3]; [1;2;3;2;4;6]]%Z. eexists.
  split; [apply tens_window; intros i Hi; cbn in *; unfold valid; cbn; lia|].
  split; [intros i j Hi Hj; cbn in *; unfold valid; cbn; lia|].
  split; [apply tens_window; intros i Hi; cbn in *; unfold valid; cbn; lia|].
  do 4 (split; [reflexivity|]). split; [vm_compute; reflexivity|]. split; [vm_compute; reflexivity|]. discriminate.
Qed.
Print Assumptions C42_shape_refuted.
Theorem C42_overflow_refuted {F} {SF : Scalar F} (a b : F) (A : targ) (B : marg) (C : targ) (x : arg) (s : list nat) (k : nat) :
  h_shape A = s ++ [k] -> 0 < k -> (Z.of_nat k < 2 ^ 31)%Z -> (Z.of_nat (prod s) < 2 ^ 31)%Z -> (2 ^ 31 <= Z.of_nat (prod s * k))%Z ->
  k_tensvec_ab a A x b C = UB /\ k_tensmat_ab a A B b C = UB /\ k_tensmul_ab a A A b C = UB.
Proof.
  intros SA Hk H1 H2 H3. assert (M : move_dense2 A (-1) (int_of k) = UB).
  { unfold move_dense2, move_dims. rewrite h_nnz_prod, SA, prod_app. cbn [prod]. rewrite Nat.mul_1_r.
    rewrite (int_of_sm k) by auto. destruct (Z.ltb_spec (Z.of_nat k) 0); [lia|]. change (-1 <? 0)%Z with true. cbn [andb negb require_ bind].
    destruct (Z.eqb_spec (Z.of_nat k) 0); [lia|]. cbn [bind]. rewrite Nat2Z.id, Nat.div_mul by lia. rewrite int_of_sm by auto.
    unfold int_mul. destruct (Z.ltb_spec (Z.of_nat (prod s) * Z.of_nat k) (2 ^ 31)); [lia|]. now rewrite andb_false_r. }
  unfold k_tensvec_ab, k_tensmat_ab, k_tensmul_ab. rewrite SA, last_dim_app. cbn [bind]. rewrite M. auto.
Qed.
Print Assumptions C42_overflow_refuted.

Example C42_example :
  let A := mkTarg (0,0) 0 [2;2;2] in let B := mkTarg (1,0) 1 [2;1] in let C := mkTarg (2,0) 0 [2;2;1] in
  let x := mkArg (1,1) 2 in let y := mkTarg (2,0) 0 [2;2] in
  let m := [[1;2;3;4;5;6;7;8]; [9;1;10]; [0;0;0;0]]%Z in
  int_sized (h_shape A) /\ int_sized (h_shape B) /\ int_sized (h_shape C) /\
  tens_ok m A /\ tens_ok m B /\ tens_ok m C /\ arg_ok m x /\ tapart A C /\ tapart B C /\ tapart A y /\ tvapart x y /\
  h_shape A = [2;2] ++ [2] /\ h_shape C = [2;2] ++ [1] /\
  (exists k, k_tensmul A B C = Ok k /\ kernel_seq k m = Ok [[1;2;3;4;5;6;7;8]; [9;1;10]; [21;43;65;87]]%Z) /\
  (exists k, k_tensvec A x y = Ok k /\ kernel_seq k m = Ok [[1;2;3;4;5;6;7;8]; [9;1;10]; [21;43;65;87]]%Z).
Proof.
  cbn zeta. do 3 (split; [split; [cbn; lia|repeat constructor; cbn; lia]|]).
  do 3 (split; [apply tens_window; intros i Hi; cbn in *; unfold valid; cbn; lia|]).
  split; [intros i Hi; cbn in *; unfold valid; cbn; lia|].
  do 4 (split; [intros p q _ _ E; cbn in E; try destruct p; discriminate|]).
  do 2 (split; [reflexivity|]). split; eexists; (split; vm_compute; reflexivity).
Qed.

(** ** C43: moves *)

(** Whatever the arguments: if Dense.move(tensor, rowN, colN) returns, the matrix has the tensor's element
    count and its (i,j) is the tensor element with flat number i*col+j, in the same memory. *)
Theorem C43_move_ok (A : targ) (rowN colN : Z) (M : marg) : (Z.of_nat (prod (h_shape A)) < 2 ^ 63)%Z ->
  move_dense2 A rowN colN = Ok M ->
  g_row M * g_col M = prod (h_shape A) /\
  (forall i j pos, row_major (h_shape A) pos = i * g_col M + j -> mslot M i j = tslot A pos) /\
  ((0 <= rowN)%Z -> g_row M = Z.to_nat rowN) /\ ((0 <= colN)%Z -> g_col M = Z.to_nat colN).
Proof.
  intros Hn. unfold move_dense2. rewrite h_nnz_prod. destruct (move_dims (prod (h_shape A)) rowN colN) as [[r c]| | | |] eqn:E; try discriminate.
  cbn [bind]. intros H; injection H as <-. cbn [g_row g_col].
  assert (G : r * c = prod (h_shape A) /\ ((0 <= rowN)%Z -> r = Z.to_nat rowN) /\ ((0 <= colN)%Z -> c = Z.to_nat colN)).
  { revert E. unfold move_dims, int_mul. generalize dependent (prod (h_shape A)). intros n Hn.
    assert (R : forall a, (- 2 ^ 31 <= int_of a < 2 ^ 31)%Z).
    { intros a. unfold int_of. pose proof (Z.mod_pos_bound (Z.of_nat a + 2 ^ 31) (2 ^ 32)). lia. }
    destruct (Z.ltb_spec rowN 0); destruct (Z.ltb_spec colN 0); cbn [andb negb require_ bind]; try discriminate.
    - destruct (Z.eqb_spec colN 0); [discriminate|]. cbn [bind].
      specialize (R (n / Z.to_nat colN)). revert R. generalize (int_of (n / Z.to_nat colN)). intros q R.
      destruct (Z.leb_spec (- 2 ^ 31) (q * colN)); destruct (Z.ltb_spec (q * colN) (2 ^ 31)); cbn [andb bind]; try discriminate.
      destruct (Z.eqb_spec ((q * colN) mod 2 ^ 64) (Z.of_nat n)) as [Em|Em]; cbn [require_ bind]; try discriminate.
      intros E; injection E as <- <-.
      assert (0 <= q * colN)%Z.
      { destruct (Z.ltb_spec (q * colN) 0); [|lia]. exfalso.
        rewrite <- (Z.mod_add _ 1 (2 ^ 64)), Z.mod_small in Em by lia. lia. }
      rewrite Z.mod_small in Em by lia. split; [nia|]. split; [lia|auto].
    - destruct (Z.eqb_spec rowN 0); [discriminate|]. cbn [bind].
      specialize (R (n / Z.to_nat rowN)). revert R. generalize (int_of (n / Z.to_nat rowN)). intros q R.
      destruct (Z.leb_spec (- 2 ^ 31) (rowN * q)); destruct (Z.ltb_spec (rowN * q) (2 ^ 31)); cbn [andb bind]; try discriminate.
      destruct (Z.eqb_spec ((rowN * q) mod 2 ^ 64) (Z.of_nat n)) as [Em|Em]; cbn [require_ bind]; try discriminate.
      intros E; injection E as <- <-.
      assert (0 <= rowN * q)%Z.
      { destruct (Z.ltb_spec (rowN * q) 0); [|lia]. exfalso.
        rewrite <- (Z.mod_add _ 1 (2 ^ 64)), Z.mod_small in Em by lia. lia. }
      rewrite Z.mod_small in Em by lia. split; [nia|]. split; [auto|lia].
    - assert (0 <= rowN * colN)%Z by nia.
      destruct (Z.leb_spec (- 2 ^ 31) (rowN * colN)); destruct (Z.ltb_spec (rowN * colN) (2 ^ 31)); cbn [andb bind]; try discriminate.
      destruct (Z.eqb_spec ((rowN * colN) mod 2 ^ 64) (Z.of_nat n)) as [Em|Em]; cbn [require_ bind]; try discriminate.
      intros E; injection E as <- <-. rewrite Z.mod_small in Em by lia. split; [nia|auto]. }
  destruct G as (G1 & G2 & G3). split; [exact G1|]. split; [|auto].
  intros i j pos Hp. unfold mslot, tslot, g_begin, h_begin. cbn [g_data g_first g_col]. rewrite Hp. f_equal. lia.
Qed.
Print Assumptions C43_move_ok.

(** What is accepted, for arguments and element counts in the int range: a missing dimension is inferred
    when the other one divides the count, consistent pairs are taken, everything else throws.
    Missing from the full claim: a zero next to a -1 and products beyond int (C43_zero_refuted,
    C43_overflow_refuted) and view_Dense::move (C43_view_refuted). *)
Theorem C43_move_accepts_partial (A : targ) (rowN colN : Z) :
  let n := prod (h_shape A) in
  (- 2 ^ 31 <= rowN < 2 ^ 31)%Z -> (- 2 ^ 31 <= colN < 2 ^ 31)%Z -> (Z.of_nat n < 2 ^ 31)%Z -> (rowN * colN < 2 ^ 31)%Z ->
  ((rowN < 0)%Z -> (colN < 0)%Z -> move_dense2 A rowN colN = Throw) /\
  ((rowN < 0)%Z -> (0 < colN)%Z -> move_dense2 A rowN colN =
     if n mod Z.to_nat colN =? 0 then Ok (mkMarg (h_data A) (h_first A) (n / Z.to_nat colN) (Z.to_nat colN)) else Throw) /\
  ((0 < rowN)%Z -> (colN < 0)%Z -> move_dense2 A rowN colN =
     if n mod Z.to_nat rowN =? 0 then Ok (mkMarg (h_data A) (h_first A) (Z.to_nat rowN) (n / Z.to_nat rowN)) else Throw) /\
  ((0 <= rowN)%Z -> (0 <= colN)%Z -> move_dense2 A rowN colN =
     if Z.to_nat rowN * Z.to_nat colN =? n then Ok (mkMarg (h_data A) (h_first A) (Z.to_nat rowN) (Z.to_nat colN)) else Throw).
Proof.
  cbn zeta. intros HR HC Hn Hp. unfold move_dense2. rewrite h_nnz_prod. rewrite move_dims_outcome by auto.
  repeat split; intros H1 H2;
    destruct (Z.ltb_spec rowN 0); try lia; destruct (Z.ltb_spec colN 0); try lia; cbn [andb]; auto.
  - destruct (Z.eqb_spec colN 0); [lia|]. destruct (Nat.eqb_spec (prod (h_shape A) mod Z.to_nat colN) 0); reflexivity.
  - destruct (Z.eqb_spec rowN 0); [lia|]. destruct (Nat.eqb_spec (prod (h_shape A) mod Z.to_nat rowN) 0); reflexivity.
  - destruct (Z.leb_spec (2 ^ 31) (rowN * colN)); [lia|].
    destruct (Z.eqb_spec (rowN * colN) (Z.of_nat (prod (h_shape A)))); destruct (Nat.eqb_spec (Z.to_nat rowN * Z.to_nat colN) (prod (h_shape A))); try nia; reflexivity.
Qed.
Print Assumptions C43_move_accepts_partial.

(** one dimension -1 and the other 0 divides by zero, also for an empty tensor *)
Theorem C43_zero_refuted (A : targ) (d : Z) : (d < 0)%Z -> move_dense2 A d 0 = UB /\ move_dense2 A 0 d = UB.
Proof.
  intros Hd. unfold move_dense2, move_dims. destruct (Z.ltb_spec d 0); [|lia]. auto.
Qed.
Print Assumptions C43_zero_refuted.
(** two dimensions whose product leaves the int range: undefined instead of rejected *)
Theorem C43_overflow_refuted (A : targ) (r c : Z) : (0 <= r)%Z -> (0 <= c)%Z -> (2 ^ 31 <= r * c)%Z -> move_dense2 A r c = UB.
Proof.
  intros Hr Hc Ho. unfold move_dense2, move_dims, int_mul. destruct (Z.ltb_spec r 0); [lia|]. destruct (Z.ltb_spec c 0); [lia|].
  cbn [andb negb require_ bind]. destruct (Z.ltb_spec (r * c) (2 ^ 31)); [lia|]. now rewrite andb_false_r.
Qed.
Print Assumptions C43_overflow_refuted.
(** view_Dense::move checks the requested dimensions but then takes the first two of the tensor's shape:
    the elements of the view are not those asked for, and a rank-1 tensor is read beyond its shape *)
Theorem C43_view_refuted :
  (exists A M, h_shape A = [2;3;4] /\ move_view_dense2 A 6 4 = Ok M /\ g_row M * g_col M <> prod (h_shape A)) /\
  (exists A, h_shape A = [6] /\ move_view_dense2 A 2 3 = UB).
Proof.
  split.
  - exists (mkTarg (0,0) 0 [2;3;4]). eexists. split; [reflexivity|]. split; [vm_compute; reflexivity|]. cbn. lia.
  - exists (mkTarg (0,0) 0 [6]). split; vm_compute; reflexivity.
Qed.
Print Assumptions C43_view_refuted.

(** the other moves: rank 2 tensor <-> matrix, rank 1 tensor <-> vector, tensor as vector *)
Theorem C43_other_moves (A : targ) :
  match h_shape A with
  | [r; c] => exists M, move_dense A = Ok M /\ g_row M = r /\ g_col M = c /\
      (forall i j, mslot M i j = tslot A [i; j]) /\ move_tensor_mat M = A
  | _ => move_dense A = Throw
  end /\
  match h_shape A with
  | [n] => exists v, move_vector A = Ok v /\ a_len v = n /\ forall i, padd (a_ptr v) i = tslot A [i]
  | _ => move_vector A = Throw
  end /\
  (forall nnz, (Z.of_nat (prod (h_shape A)) < 2 ^ 31)%Z -> (- 2 ^ 31 <= nnz < 2 ^ 31)%Z ->
     if ((nnz <? 0) || (nnz =? Z.of_nat (prod (h_shape A))))%Z then
       exists v, move_vector1 A nnz = Ok v /\ a_len v = prod (h_shape A) /\
         forall pos, padd (a_ptr v) (row_major (h_shape A) pos) = tslot A pos
     else move_vector1 A nnz = Throw) /\
  (forall data first n i, tslot (move_tensor_vec data first n) [i] = padd (padd data first) i).
Proof.
  split; [|split; [|split]].
  - unfold move_dense. destruct A as [d f s]. cbn [h_shape h_data h_first]. destruct s as [|r [|c [|]]]; auto.
    eexists; split; [reflexivity|]. repeat split. intros i j. unfold mslot, tslot, g_begin, h_begin. cbn. f_equal. lia.
  - unfold move_vector. destruct A as [d f s]. cbn [h_shape h_data h_first]. destruct s as [|r [|c s]]; auto.
    eexists; split; [reflexivity|]. rewrite h_nnz_prod. cbn. split; [lia|]. intros i. unfold tslot. cbn. f_equal. lia.
  - intros nnz Hn Hz. unfold move_vector1. rewrite h_nnz_prod.
    destruct (Z.ltb_spec nnz 0); cbn [orb].
    + rewrite int_of_sm by auto. rewrite Z.mod_small by lia. rewrite Z.eqb_refl. cbn [require_ bind].
      eexists; split; [reflexivity|]. split; reflexivity.
    + rewrite Z.mod_small by lia. destruct (Z.eqb_spec nnz (Z.of_nat (prod (h_shape A)))); cbn [require_ bind]; auto.
      eexists; split; [reflexivity|]. split; reflexivity.
  - intros data first n i. unfold tslot, move_tensor_vec, h_begin. cbn. f_equal. lia.
Qed.
Print Assumptions C43_other_moves.
(** a tensor with 2^31 elements or more cannot be moved to a vector: its own count does not fit *)
Theorem C43_vector_refuted (A : targ) : (2 ^ 31 <= Z.of_nat (prod (h_shape A)) < 2 ^ 63)%Z -> move_vector1 A (-1) = Throw.
Proof.
  intros H. unfold move_vector1. change (-1 <? 0)%Z with true. cbv iota. rewrite h_nnz_prod.
  revert H. generalize (prod (h_shape A)). intros n Hn.
  assert (R : (- 2 ^ 31 <= int_of n < 2 ^ 31)%Z).
  { unfold int_of. pose proof (Z.mod_pos_bound (Z.of_nat n + 2 ^ 31) (2 ^ 32)). lia. }
  destruct (Z.eqb_spec (int_of n mod 2 ^ 64) (Z.of_nat n)) as [E|E]; [|reflexivity]. exfalso.
  destruct (Z.ltb_spec (int_of n) 0).
  - rewrite <- (Z.mod_add _ 1 (2 ^ 64)), Z.mod_small in E by lia. lia.
  - rewrite Z.mod_small in E by lia. lia.
Qed.
Print Assumptions C43_vector_refuted.
Example C43_example : let A := mkTarg (0,0) 3 [2;3;4] in
  move_dense2 A (-1) 4 = Ok (mkMarg (0,0) 3 6 4) /\ move_dense2 A 2 (-1) = Ok (mkMarg (0,0) 3 2 12) /\
  move_dense2 A (-1) 5 = Throw /\ move_vector1 A (-1) = Ok (mkArg (0,3) 24).
Proof. repeat split; vm_compute; reflexivity. Qed.

(** ** C55: row and column broadcast on tensors *)
Section C55.
Context {F : Type} {SF : Scalar F}.

(** C has A's shape, all elements exist, C is A itself or disjoint from it, x does not overlap C *)
Definition tbc_ok (m : mem F) (A C : targ) (x : arg) : Prop :=
  h_shape A = h_shape C /\ tens_ok m A /\ tens_ok m C /\ arg_ok m x /\ tsame_or_apart A C /\ tvapart x C.

Lemma tbc_mat (m : mem F) A C x r c : tbc_ok m A C x -> prod (h_shape C) = r * c ->
  same_dims (as_mat A r c) (as_mat C r c) /\ mat_ok m (as_mat A r c) /\ mat_ok m (as_mat C r c) /\
  msame_or_apart (as_mat A r c) (as_mat C r c) /\ vapart x (as_mat C r c).
Proof.
  intros (H1 & H2 & H3 & H4 & H5 & H6) E. split; [split; reflexivity|].
  split; [apply as_mat_ok; [now rewrite H1|auto]|]. split; [now apply as_mat_ok|]. split.
  - destruct H5 as [[H5 _]|H5]; [left; split; [exact H5|split; reflexivity]|right].
    apply as_mat_apart; auto. now rewrite H1.
  - apply vapart_w. apply tvapart_w in H6. rewrite E in H6. exact H6.
Qed.
Lemma tsame_true A C : h_shape A = h_shape C -> tsame A C = true.
Proof. intros. now apply tsame_eq. Qed.

Theorem C55_row (op : F -> F -> F) (A C : targ) (x : arg) (s : list nat) (k : nat) (m : mem F) :
  tbc_ok m A C x -> h_shape A = s ++ [k] -> a_len x = k -> 0 < k -> int_sized (s ++ [k]) ->
  exists kern, k_trow op A x C = Ok kern /\
    tcomputes kern m C (fun pos => op (tmel m A pos) (el m x (nth (length s) pos 0))).
Proof.
  intros Hb SA Lx Hk Hs. pose proof Hb as (H1 & H2 & H3 & H4 & H5 & H6).
  destruct (int_sized_snoc s Hs Hk) as (I1 & I2 & I3).
  assert (PC : prod (h_shape C) = prod s * k) by (rewrite <- H1, SA, prod_app; cbn; lia).
  destruct (@tbc_mat m A C x (prod s) k Hb PC) as (G1 & G2 & G3 & G4 & G5).
  exists (k_row op (as_mat A (prod s) k) x (as_mat C (prod s) k)). split.
  - unfold k_trow, move_dense2. rewrite tsame_true by auto. cbn [assert_ bind]. rewrite !h_nnz_prod, H1, PC, <- H1.
    rewrite SA, last_dim_app. cbn [bind]. rewrite (@move_dims_col _ (prod s) k) by auto. cbn [bind g_col g_row].
    rewrite Lx, Nat.eqb_refl. cbn [assert_ bind]. rewrite (@move_dims_both _ (prod s) k) by auto. reflexivity.
  - eapply (@mcomputes_tensor F SF _ m C (prod s) k _ _ PC).
    + apply (@broadcast_grid F SF op (as_mat A (prod s) k) (as_mat C (prod s) k) x (fun _ j => j)); auto.
      * intros i j Hi Hj. cbn in *. lia.
      * rewrite (msame_true G1). cbn. now rewrite Lx, Nat.eqb_refl.
    + intros pos i j Hp Er Hi Hj. cbv beta. rewrite <- H1, SA in Hp, Er.
      assert (Hj' : j < prod [k]) by (cbn; lia).
      assert (Er' : row_major (s ++ [k]) pos = i * prod [k] + j) by (rewrite Er; cbn; lia).
      destruct (@split_flat s [k] pos i j Hp Er' Hj') as [Ei Ej]. destruct (inside_split _ _ Hp) as [Hp1 Hp2].
      f_equal.
      * apply as_mat_el. now rewrite SA.
      * f_equal. rewrite Ej. rewrite <- (Nat.add_0_r (length s)) at 2. rewrite <- nth_skipn. pose proof (inside_length Hp2) as L2.
        destruct (skipn (length s) pos) as [|z [|]]; try discriminate. cbn. lia.
Qed.

Theorem C55_col (op : F -> F -> F) (A C : targ) (x : arg) (d : nat) (t : list nat) (m : mem F) :
  tbc_ok m A C x -> h_shape A = d :: t -> a_len x = d -> 0 < d -> int_sized (d :: t) ->
  exists kern, k_tcol op A x C = Ok kern /\
    tcomputes kern m C (fun pos => op (tmel m A pos) (el m x (nth 0 pos 0))).
Proof.
  intros Hb SA Lx Hk Hs. pose proof Hb as (H1 & H2 & H3 & H4 & H5 & H6).
  destruct (int_sized_cons Hs Hk) as (I1 & I2 & I3).
  assert (PC : prod (h_shape C) = d * prod t) by (now rewrite <- H1, SA).
  destruct (@tbc_mat m A C x d (prod t) Hb PC) as (G1 & G2 & G3 & G4 & G5).
  exists (k_col op (as_mat A d (prod t)) x (as_mat C d (prod t))). split.
  - unfold k_tcol, move_dense2, first_dim. rewrite tsame_true by auto. cbn [assert_ bind]. rewrite !h_nnz_prod, H1, PC, <- H1.
    rewrite SA. change (rd (d :: t) 0) with (Ok d). cbn [bind]. rewrite (@move_dims_row _ d (prod t)) by auto. cbn [bind g_col g_row].
    rewrite Lx, Nat.eqb_refl. cbn [assert_ bind]. rewrite (@move_dims_both _ d (prod t)) by auto. reflexivity.
  - eapply (@mcomputes_tensor F SF _ m C d (prod t) _ _ PC).
    + apply (@broadcast_grid F SF op (as_mat A d (prod t)) (as_mat C d (prod t)) x (fun i _ => i)); auto.
      * intros i j Hi Hj. cbn in *. lia.
      * rewrite (msame_true G1). cbn. now rewrite Lx, Nat.eqb_refl.
    + intros pos i j Hp Er Hi Hj. cbv beta. rewrite <- H1, SA in Hp, Er.
      destruct (@split_flat [d] t pos i j Hp Er Hj) as [Ei Ej].
      f_equal; [apply as_mat_el; now rewrite SA|]. f_equal. rewrite Ei.
      destruct pos as [|z pos]; [inversion Hp|]. cbn. lia.
Qed.

(** one row / one column of the unfolding: all other elements of C stay as they are *)
Theorem C55_row_line (op : F -> F -> F) (A C : targ) (num : nat) (x : arg) (s : list nat) (k : nat) (m : mem F) :
  tbc_ok m A C x -> h_shape A = s ++ [k] -> a_len x = k -> 0 < k -> int_sized (s ++ [k]) -> num < prod s ->
  exists kern, k_trow_line op A num x C = Ok kern /\
    tcomputes kern m C (fun pos => if row_major s (firstn (length s) pos) =? num
      then op (tmel m A pos) (el m x (nth (length s) pos 0)) else tmel m C pos).
Proof.
  intros Hb SA Lx Hk Hs Hnum. pose proof Hb as (H1 & H2 & H3 & H4 & H5 & H6).
  destruct (int_sized_snoc s Hs Hk) as (I1 & I2 & I3).
  assert (PC : prod (h_shape C) = prod s * k) by (rewrite <- H1, SA, prod_app; cbn; lia).
  destruct (@tbc_mat m A C x (prod s) k Hb PC) as (G1 & G2 & G3 & G4 & G5).
  exists (k_row_line op (as_mat A (prod s) k) num x (as_mat C (prod s) k)). split.
  - unfold k_trow_line, move_dense2. rewrite tsame_true by auto. cbn [assert_ bind]. rewrite !h_nnz_prod, H1, PC, <- H1.
    rewrite SA, last_dim_app. cbn [bind]. rewrite (@move_dims_col _ (prod s) k) by auto. cbn [bind g_col g_row].
    rewrite Lx, Nat.eqb_refl. destruct (Nat.leb_spec num (prod s)); [|lia]. cbn [assert_ bind].
    rewrite (@move_dims_both _ (prod s) k) by auto. reflexivity.
  - eapply (@mcomputes_tensor F SF _ m C (prod s) k _ _ PC).
    + apply (@row_line_ok F SF op (as_mat A (prod s) k) num x (as_mat C (prod s) k)); auto.
    + intros pos i j Hp Er Hi Hj. cbv beta. rewrite <- H1, SA in Hp, Er.
      assert (Hj' : j < prod [k]) by (cbn; lia).
      assert (Er' : row_major (s ++ [k]) pos = i * prod [k] + j) by (rewrite Er; cbn; lia).
      destruct (@split_flat s [k] pos i j Hp Er' Hj') as [Ei Ej]. destruct (inside_split _ _ Hp) as [Hp1 Hp2].
      rewrite <- Ei. destruct (i =? num).
      * f_equal; [apply as_mat_el; now rewrite SA|]. f_equal.
        rewrite Ej. rewrite <- (Nat.add_0_r (length s)) at 2. rewrite <- nth_skipn. pose proof (inside_length Hp2) as L2.
        destruct (skipn (length s) pos) as [|z [|]]; try discriminate. cbn. lia.
      * apply as_mat_el. now rewrite <- H1, SA.
Qed.
Theorem C55_col_line (op : F -> F -> F) (A C : targ) (num : nat) (x : arg) (d : nat) (t : list nat) (m : mem F) :
  tbc_ok m A C x -> h_shape A = d :: t -> a_len x = d -> 0 < d -> int_sized (d :: t) -> num < prod t ->
  exists kern, k_tcol_line op A num x C = Ok kern /\
    tcomputes kern m C (fun pos => if row_major t (skipn 1 pos) =? num
      then op (tmel m A pos) (el m x (nth 0 pos 0)) else tmel m C pos).
Proof.
  intros Hb SA Lx Hk Hs Hnum. pose proof Hb as (H1 & H2 & H3 & H4 & H5 & H6).
  destruct (int_sized_cons Hs Hk) as (I1 & I2 & I3).
  assert (PC : prod (h_shape C) = d * prod t) by (now rewrite <- H1, SA).
  destruct (@tbc_mat m A C x d (prod t) Hb PC) as (G1 & G2 & G3 & G4 & G5).
  exists (k_col_line op (as_mat A d (prod t)) num x (as_mat C d (prod t))). split.
  - unfold k_tcol_line, move_dense2, first_dim. rewrite tsame_true by auto. cbn [assert_ bind]. rewrite !h_nnz_prod, H1, PC, <- H1.
    rewrite SA. change (rd (d :: t) 0) with (Ok d). cbn [bind]. rewrite (@move_dims_row _ d (prod t)) by auto. cbn [bind g_col g_row].
    rewrite Lx, Nat.eqb_refl. destruct (Nat.leb_spec num (prod t)); [|lia]. cbn [assert_ bind].
    rewrite (@move_dims_both _ d (prod t)) by auto. reflexivity.
  - eapply (@mcomputes_tensor F SF _ m C d (prod t) _ _ PC).
    + apply (@col_line_ok F SF op (as_mat A d (prod t)) num x (as_mat C d (prod t))); auto.
    + intros pos i j Hp Er Hi Hj. cbv beta. rewrite <- H1, SA in Hp, Er.
      destruct (@split_flat [d] t pos i j Hp Er Hj) as [Ei Ej]. cbn [length] in *.
      rewrite <- Ej. destruct (j =? num).
      * f_equal; [apply as_mat_el; now rewrite SA|]. f_equal. rewrite Ei.
        destruct pos as [|z pos]; [inversion Hp|]. cbn. lia.
      * apply as_mat_el. now rewrite <- H1, SA.
Qed.

(** different shapes abort; a vector of the wrong length aborts *)
Theorem C55_sizes (op : F -> F -> F) (A C : targ) (num : nat) (x : arg) :
  (h_shape A <> h_shape C -> k_trow op A x C = Abort /\ k_tcol op A x C = Abort /\
     k_trow_line op A num x C = Abort /\ k_tcol_line op A num x C = Abort) /\
  (forall s k, h_shape A = s ++ [k] -> 0 < k -> int_sized (s ++ [k]) -> a_len x <> k ->
     k_trow op A x C = Abort /\ k_trow_line op A num x C = Abort) /\
  (forall d t, h_shape A = d :: t -> 0 < d -> int_sized (d :: t) -> a_len x <> d ->
     k_tcol op A x C = Abort /\ k_tcol_line op A num x C = Abort).
Proof.
  assert (N : h_shape A <> h_shape C -> tsame A C = false).
  { intros H. destruct (tsame A C) eqn:E; auto. apply tsame_eq in E. congruence. }
  split; [|split].
  - intros H. unfold k_trow, k_tcol, k_trow_line, k_tcol_line. rewrite (N H). auto.
  - intros s k SA Hk Hs HL. destruct (int_sized_snoc s Hs Hk) as (I1 & I2 & I3).
    unfold k_trow, k_trow_line, move_dense2. destruct (tsame A C); [|auto]. cbn [assert_ bind]. rewrite !h_nnz_prod.
    rewrite SA, last_dim_app. cbn [bind]. rewrite (@move_dims_col _ (prod s) k) by (auto; rewrite ?prod_app; cbn [prod]; rewrite ?Nat.mul_1_r; auto).
    cbn [bind g_col]. destruct (Nat.eqb_spec k (a_len x)); [congruence|]. auto.
  - intros d t SA Hd Hs HL. destruct (int_sized_cons Hs Hd) as (I1 & I2 & I3).
    unfold k_tcol, k_tcol_line, move_dense2, first_dim. destruct (tsame A C); [|auto]. cbn [assert_ bind]. rewrite !h_nnz_prod.
    rewrite SA. change (rd (d :: t) 0) with (Ok d). cbn [bind]. rewrite (@move_dims_row _ d (prod t)) by auto.
    cbn [bind g_row]. destruct (Nat.eqb_spec d (a_len x)); [congruence|]. auto.
Qed.
End C55.
Print Assumptions C55_row.
Print Assumptions C55_col.
Print Assumptions C55_row_line.
Print Assumptions C55_col_line.
Print Assumptions C55_sizes.

(** a line number beyond the number of lines aborts, and nothing is written *)
Theorem C55_line_range {F} {SF : Scalar F} (op : F -> F -> F) (A C : targ) (num : nat) (x : arg) (m : mem F) :
  (forall s k, h_shape A = s ++ [k] -> 0 < k -> int_sized (s ++ [k]) -> prod s < num ->
     bind (k_trow_line op A num x C) (fun kern => kernel_seq kern m) = Abort) /\
  (forall d t, h_shape A = d :: t -> 0 < d -> int_sized (d :: t) -> prod t < num ->
     bind (k_tcol_line op A num x C) (fun kern => kernel_seq kern m) = Abort).
Proof.
  split.
  - intros s k SA Hk Hs HL. destruct (int_sized_snoc s Hs Hk) as (I1 & I2 & I3).
    unfold k_trow_line, move_dense2. destruct (tsame A C); [|auto]. cbn [assert_ bind]. rewrite !h_nnz_prod.
    rewrite SA, last_dim_app. cbn [bind]. rewrite (@move_dims_col _ (prod s) k) by (auto; rewrite ?prod_app; cbn [prod]; rewrite ?Nat.mul_1_r; auto).
    cbn [bind g_col g_row]. destruct (Nat.eqb_spec k (a_len x)); [|auto]. cbn [assert_ bind].
    destruct (Nat.leb_spec num (prod s)); [lia|]. reflexivity.
  - intros d t SA Hd Hs HL. destruct (int_sized_cons Hs Hd) as (I1 & I2 & I3).
    unfold k_tcol_line, move_dense2, first_dim. destruct (tsame A C); [|auto]. cbn [assert_ bind]. rewrite !h_nnz_prod.
    rewrite SA. change (rd (d :: t) 0) with (Ok d). cbn [bind]. rewrite (@move_dims_row _ d (prod t)) by auto.
    cbn [bind g_row g_col]. destruct (Nat.eqb_spec d (a_len x)); [|auto]. cbn [assert_ bind].
    destruct (Nat.leb_spec num (prod t)); [lia|]. reflexivity.
Qed.
Print Assumptions C55_line_range.

(** False of the code: the line number equal to the number of lines is accepted and the memory behind the
    tensor is accessed *)
Theorem C55_line_edge_refuted : exists (A : targ) (x : arg) (m : mem Z) kern,
  tens_ok m A /\ arg_ok m x /\ h_shape A = [2;1;2] /\ a_len x = 2 /\
  k_trow_line fmul A 2 x A = Ok kern /\ k_assert kern = true /\ kernel_seq kern m = UB.
Proof.
  exists (mkTarg (0,0) 0 [2;1;2]), (mkArg (1,0) 2), [[1;2;3;4]; [5;6]]%Z. eexists.
  split; [apply tens_window; intros i Hi; cbn in *; unfold valid; cbn; lia|].
  split; [intros i Hi; cbn in *; unfold valid; cbn; lia|].
  do 2 (split; [reflexivity|]). split; [vm_compute; reflexivity|]. split; vm_compute; reflexivity.
Qed.
Print Assumptions C55_line_edge_refuted.
Example C55_example :
  let A := mkTarg (0,0) 1 [2;1;2] in let x := mkArg (1,0) 2 in let m := [[9;1;2;3;4]; [5;6]]%Z in
  tbc_ok m A A x /\ int_sized (h_shape A) /\ h_shape A = [2;1] ++ [2] /\
  (exists k, k_trow fmul A x A = Ok k /\ kernel_seq k m = Ok [[9;5;12;15;24]; [5;6]]%Z) /\
  (exists k, k_tcol fadd A x A = Ok k /\ kernel_seq k m = Ok [[9;6;7;9;10]; [5;6]]%Z) /\
  (exists k, k_trow_line fmul A 1 x A = Ok k /\ kernel_seq k m = Ok [[9;1;2;15;24]; [5;6]]%Z).
Proof.
  cbn zeta. split.
  - split; [reflexivity|]. do 2 (split; [apply tens_window; intros i Hi; cbn in *; unfold valid; cbn; lia|]).
    split; [intros i Hi; cbn in *; unfold valid; cbn; lia|]. split; [left; auto|].
    intros k q _ _ E. cbn in E. discriminate.
  - split; [split; [cbn; lia|repeat constructor; cbn; lia]|]. split; [reflexivity|].
    repeat split; eexists; split; vm_compute; reflexivity.
Qed.

(** ** C56: element-wise operations on tensors, any scalar type, bit-exact *)
Section C56.
Context {F : Type} {SF : Scalar F}.
Local Open Scope F_scope.
Lemma tself (A : targ) : tsame_or_apart A A.
Proof. left; auto. Qed.
Theorem C56_tensadd (A B C : targ) (m : mem F) :
  h_shape A = h_shape C -> h_shape B = h_shape C -> tens_ok m A -> tens_ok m B -> tens_ok m C ->
  tsame_or_apart A C -> tsame_or_apart B C ->
  tcomputes (k_tensadd A B C) m C (fun pos => tmel m A pos + tmel m B pos) /\
  tcomputes (k_tenssub A B C) m C (fun pos => tmel m A pos - tmel m B pos).
Proof.
  intros H1 H2 H3 H4 H5 H6 H7.
  assert (E1 : tsame A B && tsame A C = true) by (rewrite !tsame_true by congruence; reflexivity).
  split; (apply kt2; auto; rewrite h_nnz_prod; congruence).
Qed.
Theorem C56_scalar (alpha : F) (A C : targ) (m : mem F) :
  h_shape A = h_shape C -> tens_ok m A -> tens_ok m C -> tsame_or_apart A C ->
  tcomputes (k_ttimes alpha A C) m C (fun pos => tmel m A pos * alpha) /\
  tcomputes (k_tadds alpha A C) m C (fun pos => tmel m A pos + alpha) /\
  tcomputes (k_tcopy A C) m C (fun pos => tmel m A pos).
Proof.
  intros H1 H2 H3 H4. split; [|split].
  - apply (@kt1 F SF _ _ (fun x => x * alpha)); auto using tsame_true. rewrite h_nnz_prod. congruence.
  - apply (@kt1 F SF _ _ (fun x => x + alpha)); auto using tsame_true. rewrite h_nnz_prod. congruence.
  - apply (@kt1 F SF _ _ (fun x => x)); auto using tsame_true. rewrite h_nnz_prod. congruence.
Qed.
Theorem C56_inplace (alpha : F) (A : targ) (m : mem F) : tens_ok m A ->
  tcomputes (k_tscal alpha A) m A (fun pos => tmel m A pos * alpha) /\ tcomputes (k_tfill alpha A) m A (fun _ => alpha).
Proof.
  intros H. split.
  - apply (@kt1 F SF _ _ (fun x => x * alpha)); auto using tself, h_nnz_prod.
  - apply kt0; auto using h_nnz_prod.
Qed.
Theorem C56_sizes (alpha : F) (A B C : targ) (m : mem F) :
  (h_shape A <> h_shape C -> kernel_seq (k_ttimes alpha A C) m = Abort /\ kernel_seq (k_tadds alpha A C) m = Abort /\
     kernel_seq (k_tcopy A C) m = Abort) /\
  (h_shape A <> h_shape B \/ h_shape A <> h_shape C ->
     kernel_seq (k_tensadd A B C) m = Abort /\ kernel_seq (k_tenssub A B C) m = Abort).
Proof.
  assert (N : forall P Q, h_shape P <> h_shape Q -> tsame P Q = false).
  { intros P Q H. destruct (tsame P Q) eqn:E; auto. apply tsame_eq in E. congruence. }
  unfold kernel_seq, k_ttimes, k_tadds, k_tcopy, k_tensadd, k_tenssub. cbn [k_assert]. split.
  - intros H. rewrite (N _ _ H). auto.
  - intros [H|H]; rewrite (N _ _ H); rewrite ?andb_false_r; auto.
Qed.
End C56.
Print Assumptions C56_tensadd.
Print Assumptions C56_scalar.
Print Assumptions C56_inplace.
Print Assumptions C56_sizes.
Example C56_example :
  let A := mkTarg (0,0) 0 [2;1;2] in let B := mkTarg (0,0) 4 [2;1;2] in let m := [[1;2;3;4;10;20;30;40]]%Z in
  tens_ok m A /\ tens_ok m B /\ tsame_or_apart A B /\ tsame_or_apart B B /\
  kernel_seq (k_tensadd A B B) m = Ok [[1;2;3;4;11;22;33;44]]%Z /\ kernel_seq (k_tscal 2%Z B) m = Ok [[1;2;3;4;20;40;60;80]]%Z.
Proof.
  cbn zeta. do 2 (split; [apply tens_window; intros i Hi; cbn in *; unfold valid; cbn; lia|]).
  split; [right; apply tapart_w; intros i j Hi Hj E; cbn in *; inversion E; lia|].
  split; [left; auto|]. split; vm_compute; reflexivity.
Qed.
