(** * DenseProof: proofs for Dense transpose, access, reshape, comparison, gemv/gemm wiring. *)
From Coq Require Import Ring.
From Verif Require Import Base Scalar Spec SumFacts Loops DenseModel CooModel Observe CooProof CooMiscProof
  Mem MemSpec ParProof VecModel KernelProof VecSpec VecProof DenseBlasModel DenseSpec DenseBlasProof.
Set Implicit Arguments.

Section DenseProof.
Context {F : Type} {SF : Scalar F}.

(** ** transpose *)
Lemma swap_at_ok {A} (dft : A) (v : list A) a b : a < length v -> b < length v -> a <> b ->
  exists v', swap_at v a b = Ok v' /\ length v' = length v /\
    forall k, nth k v' dft = if k =? a then nth b v dft else if k =? b then nth a v dft else nth k v dft.
Proof.
  intros Ha Hb Hne. unfold swap_at. rewrite (@rd_lt A v a dft), (@rd_lt A v b dft) by auto. cbn [bind].
  rewrite wr_lt by auto. cbn [bind]. rewrite wr_lt by (rewrite upd_length; auto).
  eexists. split; [reflexivity|]. split; [now rewrite !upd_length|].
  intros k. rewrite nth_upd, upd_length, nth_upd.
  destruct (Nat.ltb_spec a (length v)); [|lia]. destruct (Nat.ltb_spec b (length v)); [|lia].
  rewrite !andb_true_r.
  destruct (Nat.eqb_spec b k); destruct (Nat.eqb_spec k a); destruct (Nat.eqb_spec a k); destruct (Nat.eqb_spec k b);
    subst; auto; try lia.
Qed.

Definition done (i j a b : nat) : bool := (Nat.min a b <? i) || ((Nat.min a b =? i) && (Nat.max a b <? j)).

Lemma idx_inj M a b c d : b < M -> d < M -> a * M + b = c * M + d -> a = c /\ b = d.
Proof. intros Hb Hd E. destruct (lt_eq_lt_dec a c) as [[H| ->]|H]; [exfalso; nia|lia|exfalso; nia]. Qed.

Lemma square_transpose_loop (M : nat) (v : list F) : M * M <= length v ->
  exists v', for_ 0 M (fun i v => for_ (i + 1) M (fun j v => swap_at v (i * M + j) (j * M + i)) v) v = Ok v' /\
    length v' = length v /\
    (forall a b, a < M -> b < M -> nth (a * M + b) v' f0 = nth (b * M + a) v f0) /\
    (forall k, M * M <= k -> nth k v' f0 = nth k v f0).
Proof.
  intros HL.
  set (P := fun i j w => length w = length v /\
    (forall a b, a < M -> b < M -> nth (a * M + b) w f0 = if done i j a b then nth (b * M + a) v f0 else nth (a * M + b) v f0) /\
    (forall k, M * M <= k -> nth k w f0 = nth k v f0)).
  assert (Pext : forall i j i' j' w, (forall a b, a < M -> b < M -> a = b \/ done i j a b = done i' j' a b) -> P i j w -> P i' j' w).
  { intros i j i' j' w Hd (H1 & H2 & H3). split; auto. split; auto. intros a b Ha Hb. rewrite H2 by auto.
    destruct (Hd a b Ha Hb) as [->|E]; [|now rewrite E]. destruct (done i j b b), (done i' j' b b); auto. }
  destruct (@for0_inv (list F) (fun i w => P i (i + 1) w) M
    (fun i v => for_ (i + 1) M (fun j v => swap_at v (i * M + j) (j * M + i)) v) v) as (v' & E & H1 & H2 & H3).
  - split; auto. split; auto. intros a b Ha Hb. unfold done.
    destruct (Nat.ltb_spec (Nat.min a b) 0); [lia|]. destruct (Nat.eqb_spec (Nat.min a b) 0); auto.
    destruct (Nat.ltb_spec (Nat.max a b) (0 + 1)); cbn [orb andb]; auto. replace b with a by lia. reflexivity.
  - intros i w Hi HP.
    destruct (@for_inv (list F) (fun j w => P i j w) (i + 1) M (fun j v => swap_at v (i * M + j) (j * M + i)) w)
      as (w' & E & HP').
    + lia.
    + exact HP.
    + intros j w1 Hj (L1 & N1 & K1).
      destruct (@swap_at_ok F f0 w1 (i * M + j) (j * M + i)) as (w2 & E2 & L2 & N2); [rewrite L1; nia..| |].
      { intros E. apply idx_inj in E; lia. }
      exists w2. split; auto. split; [lia|]. split.
      * intros a b Ha Hb. rewrite N2.
        destruct (Nat.eqb_spec (a * M + b) (i * M + j)) as [E1|E1].
        { apply idx_inj in E1; try lia. destruct E1 as [-> ->]. rewrite N1 by lia. unfold done.
          destruct (Nat.ltb_spec (Nat.min j i) i); [lia|]. destruct (Nat.eqb_spec (Nat.min j i) i); [|lia].
          destruct (Nat.ltb_spec (Nat.max j i) j); [lia|]. cbn [orb andb].
          destruct (Nat.ltb_spec (Nat.min i j) i); [lia|]. destruct (Nat.eqb_spec (Nat.min i j) i); [|lia].
          destruct (Nat.ltb_spec (Nat.max i j) (S j)); [|lia]. reflexivity. }
        destruct (Nat.eqb_spec (a * M + b) (j * M + i)) as [E3|E3].
        { apply idx_inj in E3; try lia. destruct E3 as [-> ->]. rewrite N1 by lia. unfold done.
          destruct (Nat.ltb_spec (Nat.min i j) i); [lia|]. destruct (Nat.eqb_spec (Nat.min i j) i); [|lia].
          destruct (Nat.ltb_spec (Nat.max i j) j); [lia|]. cbn [orb andb].
          destruct (Nat.ltb_spec (Nat.min j i) i); [lia|]. destruct (Nat.eqb_spec (Nat.min j i) i); [|lia].
          destruct (Nat.ltb_spec (Nat.max j i) (S j)); [|lia]. reflexivity. }
        rewrite N1 by auto. destruct (Nat.eq_dec a b) as [->|Hab]; [destruct (done i j b b), (done i (S j) b b); auto|].
        assert (Ed : done i j a b = done i (S j) a b).
        { unfold done. destruct (Nat.ltb_spec (Nat.min a b) i); cbn [orb]; auto.
          destruct (Nat.eqb_spec (Nat.min a b) i); cbn [andb]; auto.
          destruct (Nat.ltb_spec (Nat.max a b) j), (Nat.ltb_spec (Nat.max a b) (S j)); auto; try lia.
          exfalso. assert (Hc : (a = i /\ b = j) \/ (a = j /\ b = i)) by lia. destruct Hc as [[-> ->]|[-> ->]]; lia. }
        now rewrite Ed.
      * intros k Hk. rewrite N2. destruct (Nat.eqb_spec k (i * M + j)); [exfalso; nia|].
        destruct (Nat.eqb_spec k (j * M + i)); [exfalso; nia|]. auto.
    + exists w'. split; auto. eapply Pext; [|exact HP']. intros a b Ha Hb.
      destruct (Nat.eq_dec a b) as [->|Hab]; auto. right. unfold done.
      destruct (Nat.ltb_spec (Nat.min a b) i), (Nat.eqb_spec (Nat.min a b) i), (Nat.ltb_spec (Nat.max a b) M),
        (Nat.ltb_spec (Nat.min a b) (S i)), (Nat.eqb_spec (Nat.min a b) (S i)), (Nat.ltb_spec (Nat.max a b) (S i + 1));
        cbn [orb andb]; auto; lia.
  - exists v'. split; auto. split; auto. split; auto. intros a b Ha Hb. rewrite H2 by auto.
    unfold done. destruct (Nat.ltb_spec (Nat.min a b) M); [reflexivity|lia].
Qed.

Lemma div_mod_idx M N n : n < M * N -> n / M < N /\ n mod M < M.
Proof.
  intros H. assert (M <> 0) by (intros ->; lia). split.
  - apply Nat.div_lt_upper_bound; auto.
  - apply Nat.mod_upper_bound; auto.
Qed.

Lemma mod_idx M i j : j < M -> (M * i + j) mod M = j.
Proof. intros H. symmetry. apply (@Nat.mod_unique _ M i j); lia. Qed.
Lemma div_idx M i j : j < M -> (M * i + j) / M = i.
Proof. intros H. symmetry. apply (@Nat.div_unique _ M i j); lia. Qed.

Lemma gather_loop n (t : list F) (f : nat -> F) (body : nat -> list F -> res (list F)) : n <= length t ->
  (forall i t', i < n -> length t' = length t -> body i t' = Ok (upd t' i (f i))) ->
  exists t', for_ 0 n body t = Ok t' /\ length t' = length t /\
    forall k, nth k t' f0 = if k <? n then f k else nth k t f0.
Proof.
  intros HL Hb. destruct (@elem_loop F f0 (fun i _ => f i) 0 n 0 body t) as (t' & E & L & N); [lia|lia| |].
  - intros i t' Hi HL'. rewrite Hb by (auto; lia). reflexivity.
  - exists t'. split; auto. split; auto. intros k. rewrite N. cbn [Nat.add Nat.leb andb]. now rewrite Nat.sub_0_r.
Qed.

Lemma dense_transpose_ok (d : dense F) : dense_ok d -> d_first d = 0 ->
  exists d', dense_transpose d = Ok d' /\ dense_ok d' /\ d_first d' = 0 /\ d_own d' = d_own d /\
    d_row d' = d_col d /\ d_col d' = d_row d /\
    forall i j, i < d_col d -> j < d_row d -> dense_fn d' i j = dense_fn d j i.
Proof.
  intros (H1 & H2 & H3) H0. unfold dense_transpose. destruct (Nat.eqb_spec (d_row d) (d_col d)) as [Es|Es].
  - destruct (@square_transpose_loop (d_row d) (d_val d)) as (v & E & L & Hn & _); [rewrite H1, <- Es in *; lia|].
    rewrite E. cbn [bind]. eexists. split; [reflexivity|]. unfold dense_ok, dense_fn, d_set_val. 
    cbn [d_row d_col d_val d_first d_nnz d_alloc d_own]. rewrite L, H0, <- Es in *. repeat split; auto.
    intros i j Hi Hj. cbn [Nat.add]. rewrite (Nat.mul_comm (d_row d) i), Hn by auto. f_equal. lia.
  - rewrite dense_new_ok. cbn [bind d_val].
    set (M := d_row d) in *. set (N := d_col d) in *.
    destruct (@gather_loop (M * N) (repeat f0 (N * M)) (fun n => nth (N * (n mod M) + n / M) (d_val d) f0)
      (fun n b => x <- rd (d_val d) (N * (n mod M) + n / M) ;; wr b n x)) as (b & E & L & Hn).
    { rewrite repeat_length. lia. }
    { intros n t Hn HL. destruct (div_mod_idx M N Hn) as [D1 D2].
      rewrite (@rd_lt F (d_val d) _ f0) by (rewrite H1; nia). cbn [bind].
      apply wr_lt. rewrite HL, repeat_length. lia. }
    rewrite E. cbn [bind]. rewrite repeat_length in L.
    destruct (@gather_loop (M * N) (d_val d) (fun n => nth n b f0) (fun n v => x <- rd b n ;; wr v n x)) as (v & E' & L' & Hn').
    { lia. }
    { intros n t Hk HL. rewrite (@rd_lt F b n f0) by lia. cbn [bind]. apply wr_lt. lia. }
    rewrite E'. cbn [bind]. eexists. split; [reflexivity|]. unfold dense_ok, dense_fn, d_set_val, d_set_rc.
    cbn [d_row d_col d_val d_first d_nnz d_alloc d_own]. rewrite H0. repeat split; auto; try lia.
    intros i j Hi Hj. cbn [Nat.add]. rewrite Hn'. destruct (Nat.ltb_spec (M * i + j) (M * N)); [|nia].
    rewrite Hn. destruct (Nat.ltb_spec (M * i + j) (M * N)); [|nia].
    f_equal. fold M N. rewrite mod_idx, div_idx by lia. reflexivity.
Qed.

Lemma dense_transpose_from_ok (d B : dense F) :
  length (d_val d) = d_alloc d -> d_first d = 0 -> d_nnz d <= d_alloc d -> dense_ok B -> d_first B = 0 ->
  exists d', dense_transpose_from d B = Ok d' /\ dense_ok d' /\ dense_plain d' /\
    d_row d' = d_col B /\ d_col d' = d_row B /\
    forall i j, i < d_col B -> j < d_row B -> dense_fn d' i j = dense_fn B j i.
Proof.
  intros HL H0 Hn (B1 & B2 & B3) B0. unfold dense_transpose_from.
  destruct (@dense_resize_ok F SF (d_set_own (d_set_rc d (d_col B) (d_row B))) (d_row B * d_col B))
    as (d2 & E & L2 & R2 & O2 & N2 & Er & Ec & F2).
  { exact HL. } { cbn. rewrite H0. lia. } { reflexivity. }
  cbn [d_set_own d_set_rc d_row d_col d_first] in Er, Ec, F2. specialize (F2 H0).
  rewrite E. cbn [bind]. rewrite Er, Ec.
  set (M := d_row B) in *. set (N := d_col B) in *.
  destruct (@gather_loop (N * M) (d_val d2) (fun n => nth (N * (n mod M) + n / M) (d_val B) f0)
      (fun n v => x <- rd (d_val B) (N * (n mod M) + n / M) ;; wr v n x)) as (b & Eb & Lb & Hb).
  { lia. }
  { intros n t Hk HLt. rewrite Nat.mul_comm in Hk. destruct (div_mod_idx M N Hk) as [D1 D2].
    rewrite (@rd_lt F (d_val B) _ f0) by (rewrite B1; nia). cbn [bind].
    apply wr_lt. lia. }
  rewrite Eb. cbn [bind]. eexists. split; [reflexivity|]. unfold dense_ok, dense_plain, dense_fn, d_set_val.
  cbn [d_row d_col d_val d_first d_nnz d_alloc d_own]. rewrite Er, Ec, F2. repeat split; auto; try lia.
  intros i j Hi Hj. cbn [Nat.add]. rewrite Hb. destruct (Nat.ltb_spec (M * i + j) (N * M)); [|nia].
  rewrite mod_idx, div_idx by lia. rewrite B0. cbn [Nat.add]. reflexivity.
Qed.
(** ** the parallel loops of transpose *)
Lemma swap_loop_par (d : ptr) (M i : nat) (m : mem F) : i < M -> window m d (M * M) ->
  exists m', par_result (M - (i + 1)) (swap_body d M i) m m' /\ seq_for (M - (i + 1)) (swap_body d M i) m = Ok m' /\
    same_shape m m' /\
    (forall j, i < j < M -> cell m' (padd d (i * M + j)) = cell m (padd d (j * M + i)) /\
                        cell m' (padd d (j * M + i)) = cell m (padd d (i * M + j))) /\
    (forall p, (forall j, i < j < M -> p <> padd d (i * M + j) /\ p <> padd d (j * M + i)) -> cell m' p = cell m p).
Proof.
  intros Hi HW. set (N := M - (i + 1)).
  set (W := fun k p => p = padd d (i * M + (i + 1 + k)) \/ p = padd d ((i + 1 + k) * M + i)).
  assert (Hdis : forall k l p, k < N -> l < N -> W k p -> W l p -> k = l).
  { intros k l p Hk Hl [ -> | -> ] [E|E]; apply padd_inj in E; apply idx_inj in E; lia. }
  assert (HRF : race_free (F:=F) N (swap_body d M i)).
  { exists W, W. split.
    - intros k Hk. unfold swap_body, W. cbn. auto 10.
    - intros k l p Hk Hl Hne HWp. split; intros HWl; apply Hne; apply (Hdis k l p); auto. }
  destruct (@iter_loop F SF N (swap_body d M i) W
    (fun p => match find (fun k => ptr_eqb (padd d (i * M + (i + 1 + k))) p) (seq 0 N) with
              | Some k => cell m (padd d ((i + 1 + k) * M + i))
              | None => match find (fun k => ptr_eqb (padd d ((i + 1 + k) * M + i)) p) (seq 0 N) with
                        | Some k => cell m (padd d (i * M + (i + 1 + k))) | None => f0 end end) m) as (m' & E & HS & H1 & H2).
  - exact Hdis.
  - intros k p. unfold W. destruct (ptr_eq_dec p (padd d (i * M + (i + 1 + k)))); auto.
    destruct (ptr_eq_dec p (padd d ((i + 1 + k) * M + i))); auto. right. tauto.
  - intros k m1 Hk HS Hag. unfold swap_body. set (j := i + 1 + k).
    assert (V1 : valid m (padd d (i * M + j))) by (apply HW; unfold j, N in *; nia).
    assert (V2 : valid m (padd d (j * M + i))) by (apply HW; unfold j, N in *; nia).
    pose proof (@shape_valid F m m1 _ HS V1) as V1'. pose proof (@shape_valid F m m1 _ HS V2) as V2'.
    cbn [run]. rewrite ld_ok by auto. cbn [bind]. rewrite ld_ok by auto. cbn [bind].
    rewrite st_ok by auto. cbn [bind]. rewrite st_ok by (apply valid_mset; auto). cbn [bind].
    assert (G1 : cell m1 (padd d (i * M + j)) = cell m (padd d (i * M + j))).
    { apply Hag. intros l Hl HWl. assert (l = k) by (apply (Hdis l k (padd d (i * M + j))); auto; try lia; left; auto). lia. }
    assert (G2 : cell m1 (padd d (j * M + i)) = cell m (padd d (j * M + i))).
    { apply Hag. intros l Hl HWl. assert (l = k) by (apply (Hdis l k (padd d (j * M + i))); auto; try lia; right; auto). lia. }
    assert (Hne : padd d (i * M + j) <> padd d (j * M + i)).
    { intros E. apply padd_inj in E. apply idx_inj in E; unfold j, N in *; lia. }
    assert (Hne' : padd d (j * M + i) <> padd d (i * M + j)) by congruence.
    eexists. split; [reflexivity|]. split.
    { eapply same_shape_trans; [apply mset_shape|apply mset_shape]. }
    split.
    + intros p [ -> | -> ].
      * rewrite cell_mset_other by (auto; apply valid_mset; auto). rewrite cell_mset_same by auto.
        destruct (find _ _) as [q|] eqn:Ef.
        -- apply find_some in Ef. destruct Ef as [Hq Eq]. apply in_seq in Hq.
           destruct (ptr_eqb_spec (padd d (i * M + (i + 1 + q))) (padd d (i * M + (i + 1 + k)))) as [Es|]; [|discriminate].
           apply padd_inj in Es. assert (q = k) as -> by lia. exact G2.
        -- exfalso. assert (Hin : In k (seq 0 N)) by (apply in_seq; lia).
           pose proof (find_none _ _ Ef k Hin) as Hn. cbn beta in Hn.
           destruct (ptr_eqb_spec (padd d (i * M + (i + 1 + k))) (padd d (i * M + (i + 1 + k)))); congruence.
      * rewrite cell_mset_same by (apply valid_mset; auto).
        destruct (find (fun k0 => ptr_eqb (padd d (i * M + (i + 1 + k0))) _) _) as [q|] eqn:Ef.
        -- exfalso. apply find_some in Ef. destruct Ef as [Hq Eq]. apply in_seq in Hq.
           destruct (ptr_eqb_spec (padd d (i * M + (i + 1 + q))) (padd d ((i + 1 + k) * M + i))) as [Es|]; [|discriminate].
           apply padd_inj in Es. apply idx_inj in Es; unfold N in *; lia.
        -- clear Ef. destruct (find _ _) as [q|] eqn:Ef.
           ++ apply find_some in Ef. destruct Ef as [Hq Eq]. apply in_seq in Hq.
              destruct (ptr_eqb_spec (padd d ((i + 1 + q) * M + i)) (padd d ((i + 1 + k) * M + i))) as [Es|]; [|discriminate].
              apply padd_inj in Es. apply idx_inj in Es; [|lia..]. assert (q = k) as -> by lia. exact G1.
           ++ exfalso. assert (Hin : In k (seq 0 N)) by (apply in_seq; lia).
              pose proof (find_none _ _ Ef k Hin) as Hn. cbn beta in Hn.
              destruct (ptr_eqb_spec (padd d ((i + 1 + k) * M + i)) (padd d ((i + 1 + k) * M + i))); congruence.
    + intros p Hp. unfold W in Hp. fold j in Hp.
      rewrite cell_mset_other by (try apply valid_mset; auto; intros E; apply Hp; auto).
      rewrite cell_mset_other by (auto; intros E; apply Hp; auto). reflexivity.
  - exists m'. split; [now apply race_free_par|]. split; auto. split; auto. split.
    + intros j Hj. set (k := j - (i + 1)). assert (Hk : k < N) by (unfold k, N; lia).
      assert (Ej : j = i + 1 + k) by (unfold k; lia). rewrite Ej. split.
      * rewrite (H1 k) by (auto; left; auto).
        destruct (find _ _) as [q|] eqn:Ef.
        -- apply find_some in Ef. destruct Ef as [Hq Eq]. apply in_seq in Hq.
           destruct (ptr_eqb_spec (padd d (i * M + (i + 1 + q))) (padd d (i * M + (i + 1 + k)))) as [Es|]; [|discriminate].
           apply padd_inj in Es. assert (q = k) as -> by lia. reflexivity.
        -- exfalso. assert (Hin : In k (seq 0 N)) by (apply in_seq; lia).
           pose proof (find_none _ _ Ef k Hin) as Hn. cbn beta in Hn.
           destruct (ptr_eqb_spec (padd d (i * M + (i + 1 + k))) (padd d (i * M + (i + 1 + k)))); congruence.
      * rewrite (H1 k) by (auto; right; auto).
        destruct (find (fun k0 => ptr_eqb (padd d (i * M + (i + 1 + k0))) _) _) as [q|] eqn:Ef.
        -- exfalso. apply find_some in Ef. destruct Ef as [Hq Eq]. apply in_seq in Hq.
           destruct (ptr_eqb_spec (padd d (i * M + (i + 1 + q))) (padd d ((i + 1 + k) * M + i))) as [Es|]; [|discriminate].
           apply padd_inj in Es. apply idx_inj in Es; unfold N in *; lia.
        -- clear Ef. destruct (find _ _) as [q|] eqn:Ef.
           ++ apply find_some in Ef. destruct Ef as [Hq Eq]. apply in_seq in Hq.
              destruct (ptr_eqb_spec (padd d ((i + 1 + q) * M + i)) (padd d ((i + 1 + k) * M + i))) as [Es|]; [|discriminate].
              apply padd_inj in Es. apply idx_inj in Es; [|lia..]. assert (q = k) as -> by lia. reflexivity.
           ++ exfalso. assert (Hin : In k (seq 0 N)) by (apply in_seq; lia).
              pose proof (find_none _ _ Ef k Hin) as Hn. cbn beta in Hn.
              destruct (ptr_eqb_spec (padd d ((i + 1 + k) * M + i)) (padd d ((i + 1 + k) * M + i))); congruence.
    + intros p Hp. apply H2. intros k Hk [E'|E'].
      * destruct (Hp (i + 1 + k)); unfold N in *; [lia|auto].
      * destruct (Hp (i + 1 + k)); unfold N in *; [lia|auto].
Qed.

(** ** accumulation loops *)
Lemma run_acc n (body : nat -> F -> prog F F) (g : nat -> F -> F) (m : mem F) s :
  (forall i s, i < n -> run (body i s) m = Ok (m, g i s)) ->
  run (pfor 0 n body s) m = Ok (m, fold_left (fun s i => g i s) (seq 0 n) s).
Proof.
  intros H. rewrite run_pfor.
  destruct (@for0_inv (mem F * F) (fun i st => st = (m, fold_left (fun s i => g i s) (seq 0 i) s)) n
    (fun i st => run (body i (snd st)) (fst st)) (m, s)) as (st & E & Hst).
  - reflexivity.
  - intros i st Hi ->. cbn [fst snd]. rewrite H by auto. eexists. split; [reflexivity|].
    rewrite seq_S, fold_left_app. reflexivity.
  - rewrite E, Hst. reflexivity.
Qed.

Lemma run_dot n (pa px : nat -> ptr) (m : mem F) : (forall l, l < n -> valid m (pa l)) -> (forall l, l < n -> valid m (px l)) ->
  run (pfor 0 n (fun l s => a <-- pa l ;; e <-- px l ;; Ret (fadd s (fmul a e))) f0) m
  = Ok (m, fold_left (fun s l => fadd s (fmul (cell m (pa l)) (cell m (px l)))) (seq 0 n) f0).
Proof.
  intros H1 H2. apply (@run_acc n _ (fun l s => fadd s (fmul (cell m (pa l)) (cell m (px l))))).
  intros l s Hl. cbn [run]. rewrite ld_ok by auto. cbn [bind]. rewrite ld_ok by auto. reflexivity.
Qed.

Lemma fold_ext {A} (f g : A -> nat -> A) n s : (forall s i, i < n -> f s i = g s i) ->
  fold_left f (seq 0 n) s = fold_left g (seq 0 n) s.
Proof.
  intros H. revert s. induction n as [|n IH]; intros s; auto.
  rewrite !seq_S, !fold_left_app. cbn [fold_left Nat.add]. rewrite IH by (intros; apply H; lia). apply H. lia.
Qed.

(** *** gemv: y[i] = alpha * dot_i + beta * y[i] *)
Lemma gemv_ok n cols (pa : nat -> nat -> ptr) (x y : ptr) alpha beta (m : mem F) b :
  b = true -> window m y n -> window m x cols ->
  (forall i j, i < n -> j < cols -> valid m (pa i j)) ->
  (forall i j k, i < n -> j < cols -> k < n -> pa i j <> padd y k) ->
  (forall j k, j < cols -> k < n -> padd x j <> padd y k) ->
  computes (mkKernel b n (fun i =>
    s <~ pfor 0 cols (fun j s => a <-- pa i j ;; e <-- padd x j ;; Ret (fadd s (fmul a e))) f0 ;;
    v <-- padd y i ;; padd y i <== fadd (fmul alpha s) (fmul beta v) ;; Ret tt)) m (mkArg y n)
   (fun i => fadd (fmul alpha (fold_left (fun s j => fadd s (fmul (cell m (pa i j)) (cell m (padd x j)))) (seq 0 cols) f0))
                  (fmul beta (cell m (padd y i)))).
Proof.
  intros -> Hy Hx Ha Hda Hdx.
  match goal with |- computes (mkKernel _ _ ?B) _ _ ?h =>
    destruct (@slot_kernel F SF n (padd y) B h
     (fun i p => (exists j, j < cols /\ (p = pa i j \/ p = padd x j)) \/ p = padd y i) m) as (m' & H1 & H2 & H3 & H4 & H5) end.
  - intros i j _ _ E. eapply padd_inj; eauto.
  - exact Hy.
  - intros i Hi. cbn beta. apply fp_bind.
    + eapply fp_mono with (R := fun p => exists j, j < cols /\ (p = pa i j \/ p = padd x j)) (W := fun _ => False); auto; [tauto|].
      apply fp_pfor. intros j s Hj. cbn. split; [exists j; split; [lia|auto]|]. intros a. split; [exists j; split; [lia|auto]|]. auto.
    + intros s. cbn. auto.
  - intros i j Hi Hj Hij [(k & Hk & [E|E])|E].
    + apply (Hda j k i); auto.
    + apply (Hdx k i); auto.
    + apply padd_inj in E. auto.
  - intros i m1 Hi HS Hag. rewrite run_pbind.
    rewrite run_dot; [|intros l Hl; eapply shape_valid; eauto..]. cbn [bind run].
    rewrite ld_ok by (eapply shape_valid; eauto). cbn [bind]. rewrite st_ok by (eapply shape_valid; eauto). cbn [bind].
    rewrite (Hag (padd y i)) by (intros j Hj Hne E; apply padd_inj in E; auto).
    erewrite fold_ext; [reflexivity|]. intros s l Hl. cbn beta.
    rewrite !Hag; auto.
    + intros j Hj Hne E. apply (Hdx l j); auto.
    + intros j Hj Hne E. apply (Hda i l j); auto.
  - exists m'. unfold kernel_result, kernel_seq, written. cbn [k_assert k_n k_body assert_ bind a_ptr a_len]. auto.
Qed.

(** *** gemm *)
Lemma gemm_ok k alpha beta A B C (m : mem F) : g_col A = k -> g_row B = k -> g_row A = g_row C -> g_col B = g_col C ->
  mat_ok m A -> mat_ok m B -> mat_ok m C -> mapart A C -> mapart B C ->
  mcomputes (k_matmul_ab alpha A B beta C) m C (fun i j =>
    fadd (fmul alpha (fold_left (fun s l => fadd s (fmul (mel m A i l) (mel m B l j))) (seq 0 k) f0))
         (fmul beta (mel m C i j))).
Proof.
  intros Hk Hk' Hr Hc HA HB HC HAC HBC. unfold k_matmul_ab, cblas_gemm. cbv zeta iota beta.
  rewrite Hk, Hk', Hr, Hc, !Nat.eqb_refl. cbn [andb].
  match goal with |- mcomputes (mkKernel _ _ (fun i => pfor 0 ?n (fun j _ => @?BB i j) tt)) _ _ ?h =>
    destruct (@grid_kernel F SF (g_row C) (fun _ => g_col C) (mslot C) BB h
     (fun i j p => (exists l, l < k /\ (p = mslot A i l \/ p = mslot B l j)) \/ p = mslot C i j) m)
       as (m' & H1 & H2 & H3 & H4 & H5) end.
  - intros i j i' j' Hi Hj Hi' Hj' E. apply (@slot_inj C); auto.
  - intros i j Hi Hj. apply HC; auto.
  - intros i j Hi Hj. apply fp_bind.
    + eapply fp_mono with (R := fun p => exists l, l < k /\ (p = mslot A i l \/ p = mslot B l j)) (W := fun _ => False); auto; [tauto|].
      apply fp_pfor. intros l s Hl. cbn. split.
      * exists l. split; [lia|]. left. rewrite <- Hk. apply slot_comm.
      * intros a. split; auto. exists l. split; [lia|]. right. rewrite <- Hc. apply slot_comm.
    + intros s. cbn. rewrite slot_comm. auto.
  - intros i j i' j' Hi Hj Hi' Hj' [(l & Hl & [E|E])|E].
    + symmetry in E. exfalso. apply (HAC i' l i j); auto; lia.
    + symmetry in E. exfalso. apply (HBC l j' i j); auto; lia.
    + apply (@slot_inj C); auto.
  - intros i j m1 Hi Hj HS Hag. cbn beta. rewrite run_pbind.
    assert (VA : forall l, l < k -> valid m (mslot A i l)) by (intros; apply HA; lia).
    assert (VB : forall l, l < k -> valid m (mslot B l j)) by (intros; apply HB; lia).
    assert (VC : valid m (mslot C i j)) by (apply HC; lia).
    rewrite run_dot; cycle 1.
    { intros l Hl. rewrite <- Hk, slot_comm. eapply shape_valid; eauto. }
    { intros l Hl. rewrite <- Hc, slot_comm. eapply shape_valid; eauto. }
    cbn [bind run]. rewrite slot_comm.
    rewrite ld_ok by (eapply shape_valid; eauto). cbn [bind]. rewrite st_ok by (eapply shape_valid; eauto). cbn [bind].
    assert (EC : cell m1 (mslot C i j) = mel m C i j).
    { apply Hag. intros i' j' Hi' Hj' Hne E. apply slot_inj in E; auto. lia. }
    rewrite EC. erewrite fold_ext; [reflexivity|]. intros s l Hl. cbn beta.
    rewrite <- Hk, <- Hc, !slot_comm. unfold mel. rewrite !Hag; auto.
    + intros i' j' Hi' Hj' Hne E. symmetry in E. apply (HBC l j i' j'); auto; lia.
    + intros i' j' Hi' Hj' Hne E. symmetry in E. apply (HAC i l i' j'); auto; lia.
  - exists m'. unfold kernel_result, kernel_seq. cbn [k_assert k_n k_body assert_ bind]. auto.
Qed.
End DenseProof.

