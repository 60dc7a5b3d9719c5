(** * TensorBlasProof *)
From Verif Require Import Base Scalar Spec SumFacts Mem MemSpec ParProof KernelProof VecModel VecSpec DenseBlasModel DenseSpec
  DenseBlasProof TensorModel TensorSpec TensorProof ReshapeProof TensorCooProof TensorBlasModel TensorBlasSpec.
Set Implicit Arguments.

(** ** flat numbers of composed positions *)
Lemma row_major_app s t p q : length p = length s -> length q = length t ->
  row_major (s ++ t) (p ++ q) = row_major s p * prod t + row_major t q.
Proof.
  revert p; induction s as [|d s IH]; intros [|x p] Hp Hq; cbn in *; try lia.
  rewrite IH by lia. rewrite prod_app. nia.
Qed.
Lemma inside_app s t p q : inside s p -> inside t q -> inside (s ++ t) (p ++ q).
Proof. apply Forall2_app. Qed.
Lemma inside_split s t pos : inside (s ++ t) pos ->
  inside s (firstn (length s) pos) /\ inside t (skipn (length s) pos).
Proof.
  revert pos; induction s as [|d s IH]; intros pos H; cbn in *; [split; [constructor|auto]|].
  inversion H as [|x ? p ? Hx Hp]; subst. destruct (IH p Hp). split; [constructor; auto|auto].
Qed.

Lemma h_nnz_prod A : h_nnz A = prod (h_shape A).
Proof. apply t_count_eq. Qed.

Lemma flat_pos s k : k < prod s -> exists pos, inside s pos /\ row_major s pos = k.
Proof. intros H. destruct (t_unindex_ok s H) as (p & _ & H1 & H2). eauto. Qed.

(** ** moves *)
Lemma int_of_sm n : (Z.of_nat n < 2 ^ 31)%Z -> int_of n = Z.of_nat n.
Proof. exact (int_of_small [] n). Qed.
Lemma move_dims_col nnz r c : nnz = r * c -> 0 < c -> (Z.of_nat nnz < 2 ^ 31)%Z -> (Z.of_nat c < 2 ^ 31)%Z ->
  move_dims nnz (-1) (int_of c) = Ok (r, c).
Proof.
  intros -> Hc Hn Hc31. assert (Hr : (Z.of_nat r < 2 ^ 31)%Z) by (assert (r <= r * c) by nia; lia).
  unfold move_dims. rewrite (@int_of_sm c) by auto.
  destruct (Z.ltb_spec (Z.of_nat c) 0); [lia|]. change (-1 <? 0)%Z with true. cbn [andb negb require_ bind].
  destruct (Z.eqb_spec (Z.of_nat c) 0); [lia|]. cbn [bind]. rewrite Nat2Z.id, Nat.div_mul by lia.
  rewrite int_of_sm by auto.
  unfold int_mul. rewrite <- Nat2Z.inj_mul. destruct (Z.leb_spec (- 2 ^ 31) (Z.of_nat (r * c))); [|lia].
  destruct (Z.ltb_spec (Z.of_nat (r * c)) (2 ^ 31)); [|lia]. cbn [andb bind].
  rewrite Z.mod_small by lia. rewrite Z.eqb_refl. cbn [require_ bind]. now rewrite !Nat2Z.id.
Qed.
Lemma move_dims_row nnz r c : nnz = r * c -> 0 < r -> (Z.of_nat nnz < 2 ^ 31)%Z -> (Z.of_nat r < 2 ^ 31)%Z ->
  move_dims nnz (int_of r) (-1) = Ok (r, c).
Proof.
  intros -> Hr Hn Hr31. assert (Hc : (Z.of_nat c < 2 ^ 31)%Z) by (assert (c <= r * c) by nia; lia).
  unfold move_dims. rewrite (@int_of_sm r) by auto.
  destruct (Z.ltb_spec (Z.of_nat r) 0); [lia|]. change (-1 <? 0)%Z with true. cbn [andb negb require_ bind].
  destruct (Z.eqb_spec (Z.of_nat r) 0); [lia|]. cbn [bind]. rewrite Nat2Z.id.
  replace (r * c / r) with c by (rewrite Nat.mul_comm, Nat.div_mul; lia).
  rewrite int_of_sm by auto.
  unfold int_mul. rewrite <- Nat2Z.inj_mul. destruct (Z.leb_spec (- 2 ^ 31) (Z.of_nat (r * c))); [|lia].
  destruct (Z.ltb_spec (Z.of_nat (r * c)) (2 ^ 31)); [|lia]. cbn [andb bind].
  rewrite Z.mod_small by lia. rewrite Z.eqb_refl. cbn [require_ bind]. now rewrite !Nat2Z.id.
Qed.
Lemma move_dims_both nnz r c : nnz = r * c -> (Z.of_nat nnz < 2 ^ 31)%Z -> (Z.of_nat r < 2 ^ 31)%Z -> (Z.of_nat c < 2 ^ 31)%Z ->
  move_dims nnz (int_of r) (int_of c) = Ok (r, c).
Proof.
  intros -> Hn Hr Hc. unfold move_dims. rewrite (@int_of_sm r), (@int_of_sm c) by auto.
  destruct (Z.ltb_spec (Z.of_nat r) 0); [lia|]. destruct (Z.ltb_spec (Z.of_nat c) 0); [lia|]. cbn [andb negb require_ bind].
  unfold int_mul. rewrite <- Nat2Z.inj_mul. destruct (Z.leb_spec (- 2 ^ 31) (Z.of_nat (r * c))); [|lia].
  destruct (Z.ltb_spec (Z.of_nat (r * c)) (2 ^ 31)); [|lia]. cbn [andb bind].
  rewrite Z.mod_small by lia. rewrite Z.eqb_refl. cbn [require_ bind]. now rewrite !Nat2Z.id.
Qed.

(** exact outcome for arguments and element counts in the int range *)
Lemma move_dims_outcome nnz rowN colN : (- 2 ^ 31 <= rowN < 2 ^ 31)%Z -> (- 2 ^ 31 <= colN < 2 ^ 31)%Z -> (Z.of_nat nnz < 2 ^ 31)%Z ->
  move_dims nnz rowN colN =
    if ((rowN <? 0) && (colN <? 0))%Z then Throw
    else if (rowN <? 0)%Z then
      (if (colN =? 0)%Z then UB else if nnz mod Z.to_nat colN =? 0 then Ok (nnz / Z.to_nat colN, Z.to_nat colN) else Throw)
    else if (colN <? 0)%Z then
      (if (rowN =? 0)%Z then UB else if nnz mod Z.to_nat rowN =? 0 then Ok (Z.to_nat rowN, nnz / Z.to_nat rowN) else Throw)
    else if (2 ^ 31 <=? rowN * colN)%Z then UB
    else if (rowN * colN =? Z.of_nat nnz)%Z then Ok (Z.to_nat rowN, Z.to_nat colN) else Throw.
Proof.
  intros HR HC Hn. unfold move_dims.
  assert (G : forall d, 0 < d -> (Z.of_nat (nnz / d) < 2 ^ 31)%Z /\ d * (nnz / d) <= nnz).
  { intros d Hd. split; [|apply Nat.mul_div_le; lia]. assert (nnz / d <= nnz) by (apply Nat.div_le_upper_bound; nia). lia. }
  destruct (Z.ltb_spec rowN 0) as [Hr|Hr]; destruct (Z.ltb_spec colN 0) as [Hc|Hc]; cbn [andb negb require_ bind]; auto.
  - destruct (Z.eqb_spec colN 0) as [->|H0]; [reflexivity|]. cbn [bind].
    destruct (G (Z.to_nat colN)) as [G1 G2]; [lia|]. rewrite int_of_sm by auto.
    unfold int_mul. assert (E : (Z.of_nat (nnz / Z.to_nat colN) * colN)%Z = Z.of_nat (Z.to_nat colN * (nnz / Z.to_nat colN))) by nia.
    rewrite E. destruct (Z.leb_spec (- 2 ^ 31) (Z.of_nat (Z.to_nat colN * (nnz / Z.to_nat colN)))); [|lia].
    destruct (Z.ltb_spec (Z.of_nat (Z.to_nat colN * (nnz / Z.to_nat colN))) (2 ^ 31)); [|lia]. cbn [andb bind].
    rewrite Z.mod_small by lia. rewrite Nat2Z.id.
    pose proof (Nat.div_mod nnz (Z.to_nat colN) ltac:(lia)).
    destruct (Z.eqb_spec (Z.of_nat (Z.to_nat colN * (nnz / Z.to_nat colN))) (Z.of_nat nnz)) as [E1|E1];
      destruct (Nat.eqb_spec (nnz mod Z.to_nat colN) 0) as [E2|E2]; cbn [require_ bind]; auto; exfalso; lia.
  - destruct (Z.eqb_spec rowN 0) as [->|H0]; [reflexivity|]. cbn [bind].
    destruct (G (Z.to_nat rowN)) as [G1 G2]; [lia|]. rewrite int_of_sm by auto.
    unfold int_mul. assert (E : (rowN * Z.of_nat (nnz / Z.to_nat rowN))%Z = Z.of_nat (Z.to_nat rowN * (nnz / Z.to_nat rowN))) by nia.
    rewrite E. destruct (Z.leb_spec (- 2 ^ 31) (Z.of_nat (Z.to_nat rowN * (nnz / Z.to_nat rowN)))); [|lia].
    destruct (Z.ltb_spec (Z.of_nat (Z.to_nat rowN * (nnz / Z.to_nat rowN))) (2 ^ 31)); [|lia]. cbn [andb bind].
    rewrite Z.mod_small by lia. rewrite Nat2Z.id.
    pose proof (Nat.div_mod nnz (Z.to_nat rowN) ltac:(lia)).
    destruct (Z.eqb_spec (Z.of_nat (Z.to_nat rowN * (nnz / Z.to_nat rowN))) (Z.of_nat nnz)) as [E1|E1];
      destruct (Nat.eqb_spec (nnz mod Z.to_nat rowN) 0) as [E2|E2]; cbn [require_ bind]; auto; exfalso; lia.
  - unfold int_mul. assert (0 <= rowN * colN)%Z by nia.
    destruct (Z.leb_spec (- 2 ^ 31) (rowN * colN)); [|lia].
    destruct (Z.leb_spec (2 ^ 31) (rowN * colN)); destruct (Z.ltb_spec (rowN * colN) (2 ^ 31)); try lia; cbn [andb bind]; auto.
    rewrite Z.mod_small by lia. destruct (Z.eqb_spec (rowN * colN) (Z.of_nat nnz)); reflexivity.
Qed.

Lemma last_dim_app s k : last_dim (s ++ [k]) = Ok k.
Proof.
  unfold last_dim. rewrite app_length, (@rd_lt _ _ _ 0) by (rewrite app_length; cbn; lia). cbn [length].
  rewrite app_nth2 by lia. replace (length s + 1 - 1 - length s) with 0 by lia. reflexivity.
Qed.

Section TB.
Context {F : Type} {SF : Scalar F}.
Notation mem := (mem F).
Notation kernel := (@kernel F).

Lemma tens_window (m : mem) A : tens_ok m A <-> window m (h_begin A) (prod (h_shape A)).
Proof.
  split.
  - intros H k Hk. destruct (flat_pos _ Hk) as (p & Hp & <-). exact (H p Hp).
  - intros H p Hp. apply H. now apply row_major_lt.
Qed.

(** windows that do not meet *)
Definition wapart (p : ptr) (n : nat) (q : ptr) (k : nat) : Prop := forall i j, i < n -> j < k -> padd p i <> padd q j.
Lemma tapart_w A C : tapart A C <-> wapart (h_begin A) (prod (h_shape A)) (h_begin C) (prod (h_shape C)).
Proof.
  split.
  - intros H i j Hi Hj. destruct (flat_pos _ Hi) as (p & Hp & <-). destruct (flat_pos _ Hj) as (q & Hq & <-). now apply H.
  - intros H p q Hp Hq. apply H; now apply row_major_lt.
Qed.
Lemma tvapart_w x C : tvapart x C <-> wapart (a_ptr x) (a_len x) (h_begin C) (prod (h_shape C)).
Proof.
  split.
  - intros H i j Hi Hj. destruct (flat_pos _ Hj) as (q & Hq & <-). now apply H.
  - intros H i q Hi Hq. apply H; auto. now apply row_major_lt.
Qed.
Lemma mat_flat (A : marg) k : k < g_nnz A -> exists i j, i < g_row A /\ j < g_col A /\ g_col A * i + j = k.
Proof.
  unfold g_nnz. intros Hk. assert (Hn : g_col A <> 0) by (intros Z; rewrite Z in Hk; lia).
  exists (k / g_col A), (k mod g_col A). split; [apply Nat.div_lt_upper_bound; auto; lia|].
  split; [now apply Nat.mod_upper_bound|]. now rewrite <- Nat.div_mod.
Qed.
Lemma mat_flat_lt (A : marg) i j : i < g_row A -> j < g_col A -> g_col A * i + j < g_nnz A.
Proof. unfold g_nnz. nia. Qed.
Lemma tmapart_w M C : tmapart M C <-> wapart (g_begin M) (g_nnz M) (h_begin C) (prod (h_shape C)).
Proof.
  split.
  - intros H i j Hi Hj. destruct (flat_pos _ Hj) as (q & Hq & <-). destruct (mat_flat M Hi) as (a & b & Ha & Hb & <-). now apply H.
  - intros H i j q Hi Hj Hq. apply H; [now apply mat_flat_lt|now apply row_major_lt].
Qed.
Lemma mapart_w A C : mapart A C <-> wapart (g_begin A) (g_nnz A) (g_begin C) (g_nnz C).
Proof.
  split.
  - intros H i j Hi Hj. destruct (mat_flat A Hi) as (a & b & Ha & Hb & <-). destruct (mat_flat C Hj) as (c & d & Hc & Hd & <-). now apply H.
  - intros H i j k l Hi Hj Hk Hl. apply H; now apply mat_flat_lt.
Qed.
Lemma vapart_w x C : vapart x C <-> wapart (a_ptr x) (a_len x) (g_begin C) (g_nnz C).
Proof.
  split.
  - intros H i j Hi Hj. destruct (mat_flat C Hj) as (c & d & Hc & Hd & <-). now apply H.
  - intros H i k l Hi Hk Hl. apply H; auto. now apply mat_flat_lt.
Qed.

(** the matrix [mkMarg (h_data A) (h_first A) r c] as another view of the tensor A *)
Definition as_mat (A : targ) (r c : nat) : marg := mkMarg (h_data A) (h_first A) r c.
Lemma as_mat_ok (m : mem) A r c : prod (h_shape A) = r * c -> tens_ok m A -> mat_ok m (as_mat A r c).
Proof. intros E H. apply mat_ok_window. apply tens_window in H. unfold g_nnz. cbn. rewrite <- E. exact H. Qed.
Lemma as_mat_el (m : mem) A r c i j pos : row_major (h_shape A) pos = i * c + j -> mel m (as_mat A r c) i j = tmel m A pos.
Proof. intros E. unfold mel, tmel, mslot, tslot. cbn. rewrite E. f_equal. f_equal. lia. Qed.

Lemma mcomputes_tensor (k : kernel) (m : mem) C r c f (g : list nat -> F) : prod (h_shape C) = r * c ->
  mcomputes k m (as_mat C r c) f ->
  (forall pos i j, inside (h_shape C) pos -> row_major (h_shape C) pos = i * c + j -> i < r -> j < c -> f i j = g pos) ->
  tcomputes k m C g.
Proof.
  intros E (m' & H1 & H2 & H3 & H4 & H5) Hg. exists m'. split; auto. split; auto. split; auto. split.
  - intros pos Hp. pose proof (row_major_lt Hp) as HL. rewrite E in HL.
    destruct (@mat_flat (as_mat C r c) (row_major (h_shape C) pos)) as (i & j & Hi & Hj & Eij); [exact HL|]. cbn in *.
    assert (E2 : row_major (h_shape C) pos = i * c + j) by lia.
    rewrite <- (@as_mat_el m' C r c i j pos E2). rewrite H4 by auto. now apply Hg.
  - intros p Hp. apply H5. intros i j Hi Hj. destruct (@flat_pos (h_shape C) (i * c + j)) as (pos & Hpos & Er).
    { rewrite E. cbn in *. nia. }
    intros Eq. apply (Hp pos Hpos). rewrite <- Eq. unfold tslot, mslot. cbn. rewrite Er. f_equal. lia.
Qed.

Lemma computes_tensor (k : kernel) (m : mem) C f (g : list nat -> F) n : n = prod (h_shape C) ->
  computes k m (mkArg (h_begin C) n) f ->
  (forall pos, inside (h_shape C) pos -> f (row_major (h_shape C) pos) = g pos) ->
  tcomputes k m C g.
Proof.
  intros -> (m' & H1 & H2 & H3 & H4 & H5) Hg. exists m'. split; auto. split; auto. split; auto. cbn [a_ptr a_len] in *. split.
  - intros pos Hp. unfold tmel, tslot. rewrite H4 by now apply row_major_lt. auto.
  - intros p Hp. apply H5. intros i Hi E. destruct (flat_pos _ Hi) as (q & Hq & <-). apply (Hp q Hq E).
Qed.

(** ** element-wise *)
Lemma tsame_eq A B : tsame A B = true <-> h_shape A = h_shape B.
Proof. unfold tsame. destruct (list_eq_dec Nat.eq_dec (h_shape A) (h_shape B)); split; auto; discriminate. Qed.

Lemma talias A C : h_shape A = h_shape C -> tsame_or_apart A C -> alias_ok (h_begin A) (h_begin C) (prod (h_shape C)).
Proof.
  intros E [[H _]|H]; [left; auto|]. right. apply tapart_w in H. rewrite E in H. exact H.
Qed.
Lemma kt1 b n (g : F -> F) A C (m : mem) : b = true -> n = prod (h_shape C) -> h_shape A = h_shape C ->
  tens_ok m A -> tens_ok m C -> tsame_or_apart A C ->
  tcomputes (mkKernel b n (map1 g (h_begin A) (h_begin C))) m C (fun pos => g (tmel m A pos)).
Proof.
  intros -> -> E HA HC Hs. apply tens_window in HA. apply tens_window in HC. rewrite E in HA.
  destruct (@map1_result F SF g (h_begin A) (h_begin C) (prod (h_shape C)) m) as (m' & H1 & H2 & H3); auto using talias.
  apply (@computes_tensor _ m C (fun i => g (cell m (padd (h_begin A) i))) _ (prod (h_shape C))); auto.
  - exists m'. unfold kernel_result, kernel_seq. cbn [k_assert k_n k_body assert_ bind]. auto.
  - intros pos Hp. unfold tmel, tslot. now rewrite E.
Qed.
Lemma kt2 b n (g : F -> F -> F) A B C (m : mem) : b = true -> n = prod (h_shape C) -> h_shape A = h_shape C -> h_shape B = h_shape C ->
  tens_ok m A -> tens_ok m B -> tens_ok m C -> tsame_or_apart A C -> tsame_or_apart B C ->
  tcomputes (mkKernel b n (map2 g (h_begin A) (h_begin B) (h_begin C))) m C (fun pos => g (tmel m A pos) (tmel m B pos)).
Proof.
  intros -> -> E E' HA HB HC Hs Hs'. apply tens_window in HA. apply tens_window in HB. apply tens_window in HC. rewrite E in HA. rewrite E' in HB.
  destruct (@map2_result F SF g (h_begin A) (h_begin B) (h_begin C) (prod (h_shape C)) m) as (m' & H1 & H2 & H3); auto using talias.
  apply (@computes_tensor _ m C (fun i => g (cell m (padd (h_begin A) i)) (cell m (padd (h_begin B) i))) _ (prod (h_shape C))); auto.
  - exists m'. unfold kernel_result, kernel_seq. cbn [k_assert k_n k_body assert_ bind]. auto.
  - intros pos Hp. unfold tmel, tslot. now rewrite E, E'.
Qed.
Lemma kt0 n (v : F) C (m : mem) : n = prod (h_shape C) -> tens_ok m C ->
  tcomputes (mkKernel true n (map0 v (h_begin C))) m C (fun _ => v).
Proof.
  intros -> HC. apply tens_window in HC.
  destruct (@map0_result F SF v (h_begin C) (prod (h_shape C)) m) as (m' & H1 & H2 & H3); auto.
  apply (@computes_tensor _ m C (fun _ => v) _ (prod (h_shape C))); auto.
  exists m'. unfold kernel_result, kernel_seq. cbn [k_assert k_n k_body assert_ bind]. auto.
Qed.

(** ** diagonals *)
Fixpoint stride (s : list nat) : nat := match s with [] => 0 | _ :: t => prod t + stride t end.
Lemma row_major_repeat s i : row_major s (repeat i (length s)) = stride s * i.
Proof. induction s as [|d s IH]; cbn; [reflexivity|]. rewrite IH. lia. Qed.
Lemma stride_snoc s d : stride (s ++ [d]) = stride s * d + (match s with [] => 1 | _ => 1 end).
Proof.
  induction s as [|e s IH]; cbn; [lia|]. rewrite prod_app, IH. cbn.
  destruct s; cbn in *; lia.
Qed.
Lemma prod_rev s : prod (rev s) = prod s.
Proof. induction s as [|d s IH]; cbn; [reflexivity|]. rewrite prod_app, IH. cbn. lia. Qed.
Lemma tdiag_fold s N sh L : fold_left (fun st d => let '(N, shift, Len) := st in (N * d, shift + N, Nat.min Len d)) s (N, sh, L)
  = (N * prod s, sh + N * stride (rev s), fold_left Nat.min s L).
Proof.
  revert N sh L; induction s as [|d s IH]; intros N sh L.
  - cbn. f_equal. f_equal; lia.
  - cbn [fold_left]. rewrite IH. cbn [prod rev]. rewrite stride_snoc. f_equal. f_equal; [lia|].
    destruct (rev s); lia.
Qed.
Lemma tdiag_scan_eq A : tdiag_scan A =
  (prod (h_shape A), stride (rev (h_shape A)), fold_left Nat.min (h_shape A) (prod (h_shape A))).
Proof. unfold tdiag_scan. rewrite tdiag_fold, h_nnz_prod. rewrite !Nat.mul_1_l. reflexivity. Qed.

Lemma fold_left_min s L : fold_left Nat.min s L = match s with [] => L | _ => Nat.min L (min_dim s) end.
Proof.
  revert L; induction s as [|d s IH]; intros L; cbn; [reflexivity|]. rewrite IH.
  destruct s as [|e s]; [reflexivity|]. cbn.
  assert (G : forall a b l, Nat.min a (fold_right Nat.min b l) = Nat.min b (fold_right Nat.min a l)).
  { intros a b l. induction l as [|x l IHl]; cbn [fold_right]; lia. }
  specialize (G d e s). lia.
Qed.
Lemma min_dim_le s : 0 < prod s -> min_dim s <= prod s.
Proof.
  destruct s as [|d s]; cbn [min_dim prod]; [auto|]. intros H.
  assert (fold_right Nat.min d s <= d) by (clear; induction s; cbn [fold_right]; lia).
  change (prod (d :: s)) with (d * prod s) in *. assert (d <= d * prod s) by (destruct (prod s); nia). lia.
Qed.
Lemma min_dim_zero s : prod s = 0 -> min_dim s = 0.
Proof.
  destruct s as [|d s]; cbn; [discriminate|]. intros H. destruct d as [|d].
  - clear. induction s; cbn; lia.
  - assert (prod s = 0) by nia. clear H. revert H0; induction s as [|x s IH]; cbn; [discriminate|]. intros H.
    destruct x; [lia|]. assert (prod s = 0) by nia. specialize (IH H0). lia.
Qed.
Lemma tdiag_len s : fold_left Nat.min s (prod s) = min_dim s.
Proof.
  rewrite fold_left_min. destruct s as [|d s]; [reflexivity|].
  destruct (Nat.eq_dec (prod (d :: s)) 0) as [E|E]; [rewrite E, (min_dim_zero _ E); reflexivity|].
  pose proof (@min_dim_le (d :: s)). lia.
Qed.
Lemma min_dim_all s i : s <> [] -> (i < min_dim s <-> Forall (fun d => i < d) s).
Proof.
  destruct s as [|d s]; [congruence|]. intros _. cbn. induction s as [|e s IH]; cbn.
  - split; [intros H; constructor; auto|intros H; inversion H; auto].
  - split.
    + intros H. assert (H' : i < fold_right Nat.min d s) by lia. apply IH in H'. inversion H'; subst.
      constructor; auto. constructor; auto. lia.
    + intros H. inversion H as [|? ? Hd H2]; subst. inversion H2 as [|? ? He Hs]; subst.
      assert (i < fold_right Nat.min d s) by (apply IH; constructor; auto). lia.
Qed.
Lemma diag_inside s i : i < min_dim s -> inside s (repeat i (length s)).
Proof.
  destruct s as [|d s]; [constructor|]. intros H. apply min_dim_all in H; [|congruence].
  revert H. generalize (d :: s). induction l; intros H; cbn; constructor; inversion H; subst; auto. now apply IHl.
Qed.
Lemma Forall_rev' {A} (P : A -> Prop) l : Forall P l -> Forall P (rev l).
Proof. intros H. rewrite Forall_forall in *. intros x Hx. apply H. now apply in_rev. Qed.
Lemma min_dim_rev s i : i < min_dim s -> inside (rev s) (repeat i (length s)).
Proof.
  destruct s as [|d s]; [constructor|]. intros H. apply min_dim_all in H; [|congruence].
  rewrite <- (rev_length (d :: s)). apply Forall_rev' in H. revert H. generalize (rev (d :: s)).
  induction l; intros H; cbn; constructor; inversion H; subst; auto. now apply IHl.
Qed.
Lemma diag_slot_lt s i : i < min_dim s -> stride (rev s) * i < prod s.
Proof.
  intros H. pose proof (row_major_lt (min_dim_rev _ H)) as G. rewrite prod_rev in G.
  rewrite <- (rev_length s), row_major_repeat in G. exact G.
Qed.
Lemma diag_slot_inj s i j : i < min_dim s -> j < min_dim s -> stride (rev s) * i = stride (rev s) * j -> i = j.
Proof.
  destruct s as [|d s]; [cbn; lia|]. intros _ _ E.
  assert (0 < stride (rev (d :: s))).
  { cbn [rev]. rewrite stride_snoc. destruct (rev s); lia. }
  nia.
Qed.

(** which iteration, if any, updates the element with flat number n *)
Definition diag_hit (s : list nat) (n : nat) : option nat := find (fun i => stride (rev s) * i =? n) (seq 0 (min_dim s)).
Lemma diag_hit_some s i : i < min_dim s -> diag_hit s (stride (rev s) * i) = Some i.
Proof.
  intros H. unfold diag_hit. destruct (find _ _) as [j|] eqn:E.
  - apply find_some in E. destruct E as [E1 E2]. apply in_seq in E1. apply Nat.eqb_eq in E2.
    f_equal. apply (@diag_slot_inj s); auto; lia.
  - exfalso. assert (X := find_none _ _ E i). cbv beta in X. rewrite Nat.eqb_refl in X.
    assert (In i (seq 0 (min_dim s))) by (apply in_seq; lia). specialize (X H0). discriminate.
Qed.
Lemma diag_hit_none s n i : diag_hit s n = None -> i < min_dim s -> stride (rev s) * i <> n.
Proof.
  intros E H Hn. assert (X := find_none _ _ E i). cbv beta in X. rewrite Hn, Nat.eqb_refl in X.
  assert (In i (seq 0 (min_dim s))) by (apply in_seq; lia). specialize (X H0). discriminate.
Qed.
Lemma diag_hit_inv s n i : diag_hit s n = Some i -> i < min_dim s /\ stride (rev s) * i = n.
Proof. intros E. apply find_some in E. destruct E as [E1 E2]. apply in_seq in E1. apply Nat.eqb_eq in E2. split; [lia|auto]. Qed.

Lemma tdiag_ok (op : F -> F -> F) A (e : nat -> F) (body : nat -> prog F unit) b n (R : nat -> ptr -> Prop) (m : mem) :
  b = true -> n = min_dim (h_shape A) ->
  tens_ok m A ->
  let slot i := padd (h_begin A) (stride (rev (h_shape A)) * i) in
  (forall i, i < n -> fp (R i) (fun p => p = slot i) (body i)) ->
  (forall i j, i < n -> j < n -> i <> j -> ~ R j (slot i)) ->
  (forall i m1, i < n -> same_shape m m1 ->
     (forall p, (forall j, j < n -> j <> i -> slot j <> p) -> cell m1 p = cell m p) ->
     run (body i) m1 = Ok (mset m1 (slot i) (op (cell m (slot i)) (e i)), tt)) ->
  tcomputes (mkKernel b n body) m A (fun pos =>
    match diag_hit (h_shape A) (row_major (h_shape A) pos) with
    | Some i => op (tmel m A pos) (e i) | None => tmel m A pos end).
Proof.
  intros -> -> HA slot H1 H2 H3. apply tens_window in HA.
  destruct (@slot_kernel F SF (min_dim (h_shape A)) slot body (fun i => op (cell m (slot i)) (e i)) R m) as (m' & K1 & K2 & K3 & K4 & K5); auto.
  - intros i j Hi Hj E. unfold slot in E. apply padd_inj in E. eapply diag_slot_inj; eauto.
  - intros i Hi. apply HA. now apply diag_slot_lt.
  - apply (@computes_tensor _ m A (fun n => match diag_hit (h_shape A) n with
        | Some i => op (cell m (padd (h_begin A) n)) (e i) | None => cell m (padd (h_begin A) n) end) _ (prod (h_shape A))); auto.
    exists m'. unfold kernel_result, kernel_seq. cbn [k_assert k_n k_body assert_ bind]. split; auto. split; auto.
    split; auto. cbn [a_ptr a_len]. split.
    + intros k Hk. destruct (diag_hit (h_shape A) k) as [i|] eqn:E.
      * apply diag_hit_inv in E. destruct E as [Hi <-]. exact (K4 i Hi).
      * apply K5. intros i Hi Ei. apply padd_inj in Ei. eapply diag_hit_none; eauto.
    + intros p Hp. apply K5. intros i Hi. apply Hp. now apply diag_slot_lt.
Qed.

Lemma tdiag_s_ok (op : F -> F -> F) A alpha (m : mem) : tens_ok m A ->
  tcomputes (k_tdiag_s op A alpha) m A (fun pos =>
    match diag_hit (h_shape A) (row_major (h_shape A) pos) with
    | Some i => op (tmel m A pos) alpha | None => tmel m A pos end).
Proof.
  intros HA. unfold k_tdiag_s. rewrite tdiag_scan_eq, tdiag_len.
  apply (@tdiag_ok op A (fun _ => alpha) _ true (min_dim (h_shape A)) (fun i p => p = padd (h_begin A) (stride (rev (h_shape A)) * i))); auto.
  - intros i Hi. cbn. auto.
  - intros i j Hi Hj Hij E. apply padd_inj in E. apply Hij. eapply diag_slot_inj; eauto.
  - intros i m1 Hi HS Hag. cbn [run]. apply tens_window in HA.
    assert (V : valid m (padd (h_begin A) (stride (rev (h_shape A)) * i))) by (apply HA; now apply diag_slot_lt).
    rewrite ld_ok by (eapply shape_valid; eauto). cbn [bind]. rewrite st_ok by (eapply shape_valid; eauto). cbn [bind].
    rewrite Hag; [reflexivity|]. intros j Hj Hji E. apply padd_inj in E. apply Hji. eapply diag_slot_inj; eauto.
Qed.
Lemma tdiag_v_ok (op : F -> F -> F) A x (m : mem) : tens_ok m A -> arg_ok m x -> tvapart x A -> a_len x = min_dim (h_shape A) ->
  tcomputes (k_tdiag_v op A x) m A (fun pos =>
    match diag_hit (h_shape A) (row_major (h_shape A) pos) with
    | Some i => op (tmel m A pos) (el m x i) | None => tmel m A pos end).
Proof.
  intros HA Hx Hv HL. unfold k_tdiag_v. rewrite tdiag_scan_eq, tdiag_len. rewrite HL, Nat.eqb_refl.
  apply tvapart_w in Hv. rewrite HL in Hv. unfold arg_ok in Hx. rewrite HL in Hx.
  apply (@tdiag_ok op A (fun i => el m x i) _ true (min_dim (h_shape A))
    (fun i p => p = padd (h_begin A) (stride (rev (h_shape A)) * i) \/ p = padd (a_ptr x) i)); auto.
  - intros i Hi. cbn. auto.
  - intros i j Hi Hj Hij [E|E]; [apply padd_inj in E; apply Hij; eapply diag_slot_inj; eauto|].
    symmetry in E. revert E. apply Hv; auto. now apply diag_slot_lt.
  - intros i m1 Hi HS Hag. cbn [run]. apply tens_window in HA.
    assert (V : valid m (padd (h_begin A) (stride (rev (h_shape A)) * i))) by (apply HA; now apply diag_slot_lt).
    rewrite ld_ok by (eapply shape_valid; eauto). cbn [bind].
    rewrite ld_ok by (eapply shape_valid; eauto). cbn [bind]. rewrite st_ok by (eapply shape_valid; eauto). cbn [bind].
    rewrite !Hag; [reflexivity| |].
    + intros j Hj Hji E. symmetry in E. revert E. apply Hv; auto. now apply diag_slot_lt.
    + intros j Hj Hji E. apply padd_inj in E. apply Hji. eapply diag_slot_inj; eauto.
Qed.

(** for shapes that read the same backwards (in particular cubes) the updated elements are the diagonal *)
Lemma on_diag_repeat pos : on_diag pos = true <-> exists i, pos = repeat i (length pos).
Proof.
  destruct pos as [|i q]; cbn; [split; [exists 0|]; auto|]. rewrite forallb_forall. split.
  - intros H. exists i. f_equal. induction q as [|x q IH]; cbn; [auto|]. rewrite <- IH by (intros; apply H; right; auto).
    f_equal. symmetry. apply Nat.eqb_eq. apply H. left; auto.
  - intros [j E] x Hx. injection E as -> E. rewrite E in Hx. apply repeat_spec in Hx. subst. apply Nat.eqb_refl.
Qed.
Lemma diag_hit_sym s pos : rev s = s -> inside s pos ->
  match diag_hit s (row_major s pos) with
  | Some i => on_diag pos = true /\ (s <> [] -> nth 0 pos 0 = i)
  | None => on_diag pos = false end.
Proof.
  intros E Hp. destruct (diag_hit s (row_major s pos)) as [i|] eqn:EH.
  - apply diag_hit_inv in EH. destruct EH as [Hi Er]. rewrite E in Er. rewrite <- row_major_repeat in Er.
    assert (pos = repeat i (length s)) by (apply (@row_major_inj s); auto using diag_inside).
    split; [apply on_diag_repeat; exists i; subst pos; now rewrite repeat_length|].
    intros Hs. subst pos. destruct s; [congruence|reflexivity].
  - destruct (on_diag pos) eqn:Ed; auto. exfalso. apply on_diag_repeat in Ed. destruct Ed as [i Ei].
    assert (HL := inside_length Hp). rewrite HL in Ei.
    assert (Hi : s = [] \/ i < min_dim s).
    { destruct s as [|d s]; [auto|right]. apply min_dim_all; [congruence|]. rewrite Ei in Hp. clear - Hp.
      revert Hp. generalize (d :: s). induction l; intros Hp; constructor; cbn in Hp; inversion Hp; subst; auto. }
    destruct Hi as [->|Hi].
    + cbn in *. subst pos. vm_compute in EH. discriminate.
    + apply (@diag_hit_none s _ i EH Hi). rewrite E, Ei, row_major_repeat. reflexivity.
Qed.
End TB.
