(** * DenseBlasProof: proofs about Dense BLAS-like operations. *)
From Coq Require Import Ring.
From Verif Require Import Base Scalar Spec SumFacts Mem MemSpec ParProof VecModel KernelProof VecSpec VecProof
  DenseBlasModel DenseSpec.
Set Implicit Arguments.

Section Grid.
Context {F : Type} {SF : Scalar F}.
Notation mem := (mem F).
Notation prog := (prog F).

(** find the pair (i,j) whose slot is p *)
Definition grid_find (M : nat) (n : nat -> nat) (slot : nat -> nat -> ptr) (h : nat -> nat -> F) (p : ptr) : F :=
  match find (fun ij => ptr_eqb (slot (fst ij) (snd ij)) p)
     (flat_map (fun i => map (fun j => (i, j)) (seq 0 (n i))) (seq 0 M)) with
  | Some ij => h (fst ij) (snd ij) | None => f0 end.

Lemma in_grid M n i j : In (i, j) (flat_map (fun i => map (fun j => (i, j)) (seq 0 (n i))) (seq 0 M)) <-> i < M /\ j < n i.
Proof.
  rewrite in_flat_map. split.
  - intros (a & Ha & Hb). apply in_map_iff in Hb. destruct Hb as (b & E & Hb). injection E as -> ->.
    apply in_seq in Ha. apply in_seq in Hb. lia.
  - intros [Hi Hj]. exists i. split; [apply in_seq; lia|]. apply in_map_iff. exists j. split; auto. apply in_seq. lia.
Qed.

Lemma grid_find_slot M n slot h i j :
  (forall i j i' j', i < M -> j < n i -> i' < M -> j' < n i' -> slot i j = slot i' j' -> i = i' /\ j = j') ->
  i < M -> j < n i -> grid_find M n slot h (slot i j) = h i j.
Proof.
  intros Hinj Hi Hj. unfold grid_find.
  destruct (find _ _) as [[a b]|] eqn:Ef.
  - apply find_some in Ef. destruct Ef as [Hin E]. apply in_grid in Hin. cbn [fst snd] in *.
    destruct (ptr_eqb_spec (slot a b) (slot i j)) as [Es|]; [|discriminate].
    destruct (Hinj a b i j) as [-> ->]; tauto.
  - exfalso. pose proof (find_none _ _ Ef (i, j)) as Hn. rewrite in_grid in Hn. specialize (Hn (conj Hi Hj)).
    cbn [fst snd] in Hn. destruct (ptr_eqb_spec (slot i j) (slot i j)); congruence.
Qed.

(** iteration i runs the inner programs (i,0), ..., (i, n i - 1); inner (i,j) writes exactly slot i j *)
Lemma grid_kernel M (n : nat -> nat) (slot : nat -> nat -> ptr) (inner : nat -> nat -> prog unit) (h : nat -> nat -> F)
  (R : nat -> nat -> ptr -> Prop) (m : mem) :
  (forall i j i' j', i < M -> j < n i -> i' < M -> j' < n i' -> slot i j = slot i' j' -> i = i' /\ j = j') ->
  (forall i j, i < M -> j < n i -> valid m (slot i j)) ->
  (forall i j, i < M -> j < n i -> fp (R i j) (fun p => p = slot i j) (inner i j)) ->
  (forall i j i' j', i < M -> j < n i -> i' < M -> j' < n i' -> R i' j' (slot i j) -> i = i' /\ j = j') ->
  (forall i j m1, i < M -> j < n i -> same_shape m m1 ->
     (forall p, (forall i' j', i' < M -> j' < n i' -> i' <> i \/ j' <> j -> slot i' j' <> p) -> cell m1 p = cell m p) ->
     run (inner i j) m1 = Ok (mset m1 (slot i j) (h i j), tt)) ->
  let body := fun i => pfor 0 (n i) (fun j _ => inner i j) tt in
  exists m', par_result M body m m' /\ seq_for M body m = Ok m' /\ same_shape m m' /\
    (forall i j, i < M -> j < n i -> cell m' (slot i j) = h i j) /\
    (forall p, (forall i j, i < M -> j < n i -> slot i j <> p) -> cell m' p = cell m p).
Proof.
  intros Hinj Hval Hfp HR Hrun body.
  set (W := fun i p => exists j, j < n i /\ slot i j = p).
  assert (HRF : race_free M body).
  { exists (fun i p => exists j, j < n i /\ R i j p), W. split.
    - intros i Hi. unfold body. apply fp_pfor. intros j s Hj.
      eapply fp_mono; [| |apply (Hfp i j Hi)]; [| |lia]; cbn.
      + intros p Hp. exists j. split; auto. lia.
      + intros p ->. exists j. split; auto. lia.
    - intros i i' p Hi Hi' Hne (j & Hj & <-). split.
      + intros (j' & Hj' & Hr). destruct (HR i j i' j'); auto.
      + intros (j' & Hj' & Es). destruct (Hinj i' j' i j); auto. }
  destruct (@iter_loop F SF M body W (grid_find M n slot h) m) as (m' & E & HS & H1 & H2).
  - intros i i' p Hi Hi' (j & Hj & <-) (j' & Hj' & Es). destruct (Hinj i' j' i j); auto.
  - intros i p. unfold W.
    assert (Hd : forall N, (exists j, j < N /\ slot i j = p) \/ ~ exists j, j < N /\ slot i j = p).
    { induction N as [|N [IH|IH]].
      - right. intros (j & Hj & _). lia.
      - left. destruct IH as (j & Hj & Es). exists j. split; auto.
      - destruct (ptr_eq_dec (slot i N) p) as [Es|Es].
        + left. exists N. auto.
        + right. intros (j & Hj & Es'). destruct (Nat.eq_dec j N) as [->|]; auto.
          apply IH. exists j. split; auto. lia. }
    apply Hd.
  - intros i m1 Hi HS Hag. unfold body. rewrite run_pfor.
    destruct (@for0_inv (mem * unit) (fun j mu => same_shape m1 (fst mu) /\
      (forall k, k < j -> cell (fst mu) (slot i k) = h i k) /\
      (forall p, (forall k, k < j -> slot i k <> p) -> cell (fst mu) p = cell m1 p)) (n i)
      (fun (i0 : nat) st => run (inner i i0) (fst st)) (m1, tt)) as ([m2 u] & E & HS2 & G1 & G2).
    + cbn [fst]. split; [apply same_shape_refl|]. split; [intros; lia|auto].
    + intros j [m2 u] Hj (HS2 & G1 & G2). cbn [fst] in *.
      assert (HSm : same_shape m m2) by (eapply same_shape_trans; eauto).
      rewrite (Hrun i j m2 Hi Hj HSm).
      * eexists. split; [reflexivity|]. cbn [fst].
        assert (Hv : valid m2 (slot i j)) by (eapply shape_valid; [exact HSm|auto]).
        split; [eapply same_shape_trans; [exact HS2|apply mset_shape]|]. split.
        -- intros k Hk. destruct (Nat.eq_dec k j) as [->|Hne].
           ++ now apply cell_mset_same.
           ++ rewrite cell_mset_other; auto.
              ** apply G1. lia.
              ** intros Es. destruct (Hinj i j i k); auto; lia.
        -- intros p Hp. rewrite cell_mset_other by auto. apply G2. auto.
      * intros p Hp. rewrite G2.
        -- apply Hag. intros i' Hi' (j' & Hj' & Es). apply (Hp i' j'); auto; lia.
        -- intros k Hk. apply Hp; auto; lia.
    + destruct u. rewrite E. exists m2. cbn [fst] in *. split; auto. split; auto. split.
      * intros p (j & Hj & <-). rewrite G1 by auto. symmetry. apply grid_find_slot; auto.
      * intros p Hp. apply G2. intros k Hk Es. apply Hp. exists k. auto.
  - exists m'. split; [now apply race_free_par|]. split; auto. split; auto. split.
    + intros i j Hi Hj. rewrite (H1 i (slot i j)); auto.
      * apply grid_find_slot; auto.
      * exists j. auto.
    + intros p Hp. apply H2. intros i Hi (j & Hj & Es). apply (Hp i j); auto.
Qed.


(** ** C41 and friends *)
Notation kernel := (@kernel F).

Lemma slot_inj A i j i' j' : j < g_col A -> j' < g_col A -> mslot A i j = mslot A i' j' -> i = i' /\ j = j'.
Proof.
  unfold mslot. intros Hj Hj' E. apply padd_inj in E.
  assert (i = i').
  { destruct (lt_eq_lt_dec i i') as [[H| ->]|H]; auto; exfalso; nia. }
  subst. lia.
Qed.

Lemma slot_comm A i j : padd (g_begin A) (i * g_col A + j) = mslot A i j.
Proof. unfold mslot. f_equal. lia. Qed.

(** flat index over the whole matrix *)
Lemma mat_ok_window (m : mem) A : mat_ok m A <-> window m (g_begin A) (g_nnz A).
Proof.
  unfold mat_ok, window, g_nnz, mslot. split.
  - intros H k Hk. assert (Hc : g_col A <> 0) by (intros E; rewrite E in Hk; lia).
    rewrite (Nat.div_mod k (g_col A) Hc). apply H.
    + apply Nat.div_lt_upper_bound; auto. lia.
    + apply Nat.mod_upper_bound. auto.
  - intros H i j Hi Hj. apply H. nia.
Qed.

Lemma mapart_alias A C : same_dims A C -> msame_or_apart A C -> alias_ok (g_begin A) (g_begin C) (g_nnz C).
Proof.
  intros [Hr Hc] [[Hb _]|H]; [left; auto|]. right. intros k l Hk Hl E.
  unfold g_nnz in *. assert (Hn : g_col C <> 0) by (intros Z; rewrite Z in Hk; lia).
  rewrite (Nat.div_mod k (g_col C) Hn), (Nat.div_mod l (g_col C) Hn) in E.
  apply (H (k / g_col C) (k mod g_col C) (l / g_col C) (l mod g_col C)).
  - rewrite Hr. apply Nat.div_lt_upper_bound; auto. lia.
  - rewrite Hc. apply Nat.mod_upper_bound. auto.
  - apply Nat.div_lt_upper_bound; auto. lia.
  - apply Nat.mod_upper_bound. auto.
  - unfold mslot. rewrite Hc. exact E.
Qed.

Lemma written_mat (m m' : mem) C (f : nat -> F) (g : nat -> nat -> F) :
  written m m' (g_begin C) (g_nnz C) f -> (forall i j, i < g_row C -> j < g_col C -> f (g_col C * i + j) = g i j) ->
  same_shape m m' /\
    (forall i j, i < g_row C -> j < g_col C -> mel m' C i j = g i j) /\
    (forall p, (forall i j, i < g_row C -> j < g_col C -> mslot C i j <> p) -> cell m' p = cell m p).
Proof.
  intros (HS & HV & HF) Hg. split; auto. split.
  - intros i j Hi Hj. unfold mel, mslot. rewrite HV; [auto|]. unfold g_nnz. nia.
  - intros p Hp. apply HF. intros k Hk E. unfold g_nnz in Hk.
    assert (Hn : g_col C <> 0) by (intros Z; rewrite Z in Hk; lia).
    apply (Hp (k / g_col C) (k mod g_col C)).
    + apply Nat.div_lt_upper_bound; auto. lia.
    + apply Nat.mod_upper_bound. auto.
    + unfold mslot. rewrite <- (Nat.div_mod k (g_col C) Hn). exact E.
Qed.

Lemma same_dims_nnz A C : same_dims A C -> g_nnz A = g_nnz C.
Proof. intros [H1 H2]. unfold g_nnz. now rewrite H1, H2. Qed.

Lemma km1 b n (g : F -> F) A C (m : mem) : b = true -> n = g_nnz C ->
  same_dims A C -> mat_ok m A -> mat_ok m C -> msame_or_apart A C ->
  mcomputes (mkKernel b n (map1 g (g_begin A) (g_begin C))) m C (fun i j => g (mel m A i j)).
Proof.
  intros -> -> Hd HA HC Hs. apply mat_ok_window in HA. apply mat_ok_window in HC.
  rewrite (same_dims_nnz Hd) in HA.
  destruct (@map1_result F SF g (g_begin A) (g_begin C) (g_nnz C) m) as (m' & H1 & H2 & H3); auto using mapart_alias.
  exists m'. unfold kernel_result, kernel_seq. cbn [k_assert k_n k_body assert_ bind]. split; auto. split; auto.
  eapply written_mat; eauto. intros i j Hi Hj. cbn beta. unfold mel, mslot. destruct Hd as [_ ->]. reflexivity.
Qed.

Lemma km2 b n (g : F -> F -> F) A B C (m : mem) : b = true -> n = g_nnz C ->
  same_dims A C -> same_dims B C -> mat_ok m A -> mat_ok m B -> mat_ok m C -> msame_or_apart A C -> msame_or_apart B C ->
  mcomputes (mkKernel b n (map2 g (g_begin A) (g_begin B) (g_begin C))) m C (fun i j => g (mel m A i j) (mel m B i j)).
Proof.
  intros -> -> Hd Hd' HA HB HC Hs Hs'. apply mat_ok_window in HA. apply mat_ok_window in HB. apply mat_ok_window in HC.
  rewrite (same_dims_nnz Hd) in HA. rewrite (same_dims_nnz Hd') in HB.
  destruct (@map2_result F SF g (g_begin A) (g_begin B) (g_begin C) (g_nnz C) m) as (m' & H1 & H2 & H3); auto using mapart_alias.
  exists m'. unfold kernel_result, kernel_seq. cbn [k_assert k_n k_body assert_ bind]. split; auto. split; auto.
  eapply written_mat; eauto. intros i j Hi Hj. cbn beta. unfold mel, mslot.
  destruct Hd as [_ ->]. destruct Hd' as [_ ->]. reflexivity.
Qed.

Lemma km0 n (v : F) C (m : mem) : n = g_nnz C -> mat_ok m C ->
  mcomputes (mkKernel true n (map0 v (g_begin C))) m C (fun _ _ => v).
Proof.
  intros -> HC. apply mat_ok_window in HC.
  destruct (@map0_result F SF v (g_begin C) (g_nnz C) m) as (m' & H1 & H2 & H3); auto.
  exists m'. unfold kernel_result, kernel_seq. cbn [k_assert k_n k_body assert_ bind]. split; auto. split; auto.
  eapply written_mat; eauto.
Qed.

Lemma msame_true A B : same_dims A B -> msame A B = true.
Proof. intros [H1 H2]. unfold msame. rewrite H1, H2, !Nat.eqb_refl. reflexivity. Qed.
Lemma msame_false A B : ~ same_dims A B -> msame A B = false.
Proof.
  intros H. unfold msame. destruct (Nat.eqb_spec (g_row A) (g_row B)); auto.
  destruct (Nat.eqb_spec (g_col A) (g_col B)); auto. exfalso. apply H. split; auto.
Qed.
Lemma mself A : msame_or_apart A A.
Proof. left. split; auto. split; auto. Qed.
Lemma sd_refl A : same_dims A A. Proof. split; auto. Qed.

Lemma fp_cell_op (op : F -> F -> F) pa px pc (R W : ptr -> Prop) : R pa -> R px -> W pc -> fp R W (cell_op op pa px pc).
Proof. intros. unfold cell_op. cbn. auto. Qed.

Lemma run_cell_op (op : F -> F -> F) pa px pc (m : mem) : valid m pa -> valid m px -> valid m pc ->
  run (cell_op op pa px pc) m = Ok (mset m pc (op (cell m pa) (cell m px)), tt).
Proof.
  intros H1 H2 H3. unfold cell_op. cbn [run]. rewrite ld_ok by auto. cbn [bind]. rewrite ld_ok by auto. cbn [bind].
  rewrite st_ok by auto. reflexivity.
Qed.

(** C[i][j] = op(A[i][j], x[s i j]) over the whole grid *)
Lemma broadcast_grid (op : F -> F -> F) A C (x : arg) (s : nat -> nat -> nat) (m : mem) :
  same_dims A C -> mat_ok m A -> mat_ok m C -> arg_ok m x -> msame_or_apart A C -> vapart x C ->
  (forall i j, i < g_row A -> j < g_col A -> s i j < a_len x) ->
  forall b, b = true ->
  mcomputes (mkKernel b (g_row A) (fun i =>
    pfor 0 (g_col A) (fun j _ => cell_op op (padd (g_begin A) (i * g_col A + j)) (padd (a_ptr x) (s i j))
       (padd (g_begin C) (i * g_col A + j))) tt)) m C (fun i j => op (mel m A i j) (el m x (s i j))).
Proof.
  intros Hd HA HC Hx Hs Hv Hsx b ->. pose proof Hd as [Hr Hc].
  assert (Hread : forall i j k l, i < g_row A -> j < g_col A -> k < g_row A -> l < g_col A ->
     mslot A i j = mslot C k l -> i = k /\ j = l).
  { intros i j k l Hi Hj Hk Hl E. destruct Hs as [[Hb _]|Ha].
    - apply (@slot_inj A); auto. rewrite E. unfold mslot. now rewrite Hb, Hc.
    - exfalso. apply (Ha i j k l); auto; lia. }
  destruct (@grid_kernel (g_row A) (fun _ => g_col A) (mslot C)
    (fun i j => cell_op op (padd (g_begin A) (i * g_col A + j)) (padd (a_ptr x) (s i j))
       (padd (g_begin C) (i * g_col A + j)))
    (fun i j => op (mel m A i j) (el m x (s i j)))
    (fun i j p => p = mslot A i j \/ p = padd (a_ptr x) (s i j)) m) as (m' & H1 & H2 & H3 & H4 & H5).
  - intros i j i' j' Hi Hj Hi' Hj' E. apply (@slot_inj C); auto; lia.
  - intros i j Hi Hj. apply HC; lia.
  - intros i j Hi Hj. apply fp_cell_op; auto.
    + left. apply slot_comm.
    + rewrite Hc. apply slot_comm.
  - intros i j i' j' Hi Hj Hi' Hj' [E|E].
    + symmetry in E. destruct (Hread i' j' i j); auto.
    + exfalso. apply (Hv (s i' j') i j); auto; lia.
  - intros i j m1 Hi Hj HS Hag.
    rewrite slot_comm. rewrite Hc at 1. rewrite slot_comm.
    assert (VA : valid m (mslot A i j)) by (apply HA; auto).
    assert (VC : valid m (mslot C i j)) by (apply HC; lia).
    assert (VX : valid m (padd (a_ptr x) (s i j))) by (apply Hx; auto).
    rewrite run_cell_op by (eapply shape_valid; eauto).
    rewrite !Hag; [reflexivity| |].
    + intros i' j' Hi' Hj' Hne E. apply (Hv (s i j) i' j'); auto; lia.
    + intros i' j' Hi' Hj' Hne E. symmetry in E. destruct (Hread i j i' j'); auto. lia.
  - exists m'. unfold kernel_result, kernel_seq. cbn [k_assert k_n k_body assert_ bind].
    rewrite Hr, Hc in *. split; [|split; [|split; [|split]]]; auto.
Qed.

(** a kernel that changes only some elements of C, one per iteration *)
Lemma line_kernel N (slot : nat -> nat * nat) (body : nat -> prog unit) (h : nat -> F) (R : nat -> ptr -> Prop) C
  (f : nat -> nat -> F) (m : mem) b :
  b = true ->
  (forall k, k < N -> fst (slot k) < g_row C /\ snd (slot k) < g_col C) ->
  (forall k k', k < N -> k' < N -> slot k = slot k' -> k = k') ->
  mat_ok m C ->
  (forall k, k < N -> fp (R k) (fun p => p = mslot C (fst (slot k)) (snd (slot k))) (body k)) ->
  (forall k k', k < N -> k' < N -> k <> k' -> ~ R k' (mslot C (fst (slot k)) (snd (slot k)))) ->
  (forall k m1, k < N -> same_shape m m1 ->
     (forall p, (forall k', k' < N -> k' <> k -> mslot C (fst (slot k')) (snd (slot k')) <> p) -> cell m1 p = cell m p) ->
     run (body k) m1 = Ok (mset m1 (mslot C (fst (slot k)) (snd (slot k))) (h k), tt)) ->
  (forall k, k < N -> f (fst (slot k)) (snd (slot k)) = h k) ->
  (forall i j, i < g_row C -> j < g_col C -> (forall k, k < N -> slot k <> (i, j)) -> f i j = mel m C i j) ->
  mcomputes (mkKernel b N body) m C f.
Proof.
  intros -> Hin Hinj HC Hfp HR Hrun Hf Hf'.
  destruct (@slot_kernel F SF N (fun k => mslot C (fst (slot k)) (snd (slot k))) body h R m)
    as (m' & H1 & H2 & H3 & H4 & H5); auto.
  - intros k k' Hk Hk' E. apply slot_inj in E; [|apply Hin; auto..]. apply Hinj; auto.
    destruct (slot k), (slot k'). cbn in E. destruct E. congruence.
  - intros k Hk. apply HC; apply Hin; auto.
  - exists m'. unfold kernel_result, kernel_seq. cbn [k_assert k_n k_body assert_ bind].
    split; auto. split; auto. split; auto. split.
    + intros i j Hi Hj.
      assert (Hdec : forall n, (exists k, k < n /\ slot k = (i, j)) \/ forall k, k < n -> slot k <> (i, j)).
      { induction n as [|n IH].
        - right. intros; lia.
        - destruct IH as [(k & Hk & E)|IH]; [left; exists k; split; auto|].
          assert (De : {slot n = (i,j)} + {slot n <> (i,j)}) by (decide equality; apply Nat.eq_dec).
          destruct De as [E|E]; [left; exists n; auto|right].
          intros k Hk. destruct (Nat.eq_dec k n) as [->|]; auto. apply IH. lia. }
      destruct (Hdec N) as [(k & Hk & E)|Hno].
      * unfold mel. pose proof (H4 k Hk) as G. rewrite E in G. cbn [fst snd] in G. rewrite G.
        rewrite <- Hf by auto. now rewrite E.
      * rewrite Hf' by auto. unfold mel. apply H5. intros k Hk E.
        apply slot_inj in E; [|apply Hin; auto|auto]. apply (Hno k Hk). destruct (slot k). cbn in E. destruct E. congruence.
    + intros p Hp. apply H5. intros k Hk. apply Hp; apply Hin; auto.
Qed.

Lemma row_line_ok (op : F -> F -> F) A num (x : arg) C (m : mem) :
  same_dims A C -> mat_ok m A -> mat_ok m C -> arg_ok m x -> a_len x = g_col A -> num < g_row A ->
  msame_or_apart A C -> vapart x C ->
  mcomputes (k_row_line op A num x C) m C
    (fun i j => if i =? num then op (mel m A i j) (el m x j) else mel m C i j).
Proof.
  intros Hd HA HC Hx Hl Hn Hs Hv. pose proof Hd as [Hr Hc]. unfold k_row_line.
  apply (@line_kernel (g_col A) (fun j => (num, j)) _ (fun j => op (mel m A num j) (el m x j))
    (fun j p => p = mslot A num j \/ p = padd (a_ptr x) j)); cbn [fst snd]; auto.
  - rewrite (msame_true Hd), Hl, Nat.eqb_refl. cbn [andb]. apply Nat.leb_le. lia.
  - intros k Hk. lia.
  - intros k k' _ _ E. injection E. auto.
  - intros k Hk. apply fp_cell_op; auto.
    + left. apply slot_comm.
    + rewrite Hc. apply slot_comm.
  - intros k k' Hk Hk' Hne [E|E].
    + destruct Hs as [[Hb _]|Ha].
      * apply Hne. assert (E' : mslot C num k = mslot C num k').
        { rewrite E. unfold mslot. now rewrite Hb, Hc. }
        apply slot_inj in E'; lia.
      * apply (Ha num k' num k); auto; lia.
    + apply (Hv k' num k); auto; lia.
  - intros k m1 Hk HS Hag. rewrite slot_comm. rewrite Hc at 1. rewrite slot_comm.
    assert (VA : valid m (mslot A num k)) by (apply HA; auto).
    assert (VC : valid m (mslot C num k)) by (apply HC; lia).
    assert (VX : valid m (padd (a_ptr x) k)) by (apply Hx; lia).
    rewrite run_cell_op by (eapply shape_valid; eauto).
    rewrite !Hag; [reflexivity| |].
    + intros k' Hk' Hne E. apply (Hv k num k'); auto; lia.
    + intros k' Hk' Hne E. destruct Hs as [[Hb _]|Ha].
      * assert (E' : mslot C num k' = mslot C num k). { rewrite E. unfold mslot. now rewrite Hb, Hc. }
        apply slot_inj in E'; lia.
      * apply (Ha num k num k'); auto; lia.
  - intros k Hk. now rewrite Nat.eqb_refl.
  - intros i j Hi Hj Hno. destruct (Nat.eqb_spec i num) as [->|]; auto. exfalso. apply (Hno j); auto. lia.
Qed.

Lemma col_line_ok (op : F -> F -> F) A num (x : arg) C (m : mem) :
  same_dims A C -> mat_ok m A -> mat_ok m C -> arg_ok m x -> a_len x = g_row A -> num < g_col A ->
  msame_or_apart A C -> vapart x C ->
  mcomputes (k_col_line op A num x C) m C
    (fun i j => if j =? num then op (mel m A i j) (el m x i) else mel m C i j).
Proof.
  intros Hd HA HC Hx Hl Hn Hs Hv. pose proof Hd as [Hr Hc]. unfold k_col_line.
  apply (@line_kernel (g_row A) (fun i => (i, num)) _ (fun i => op (mel m A i num) (el m x i))
    (fun i p => p = mslot A i num \/ p = padd (a_ptr x) i)); cbn [fst snd]; auto.
  - rewrite (msame_true Hd), Hl, Nat.eqb_refl. cbn [andb]. apply Nat.leb_le. lia.
  - intros k Hk. lia.
  - intros k k' _ _ E. injection E. auto.
  - intros k Hk. apply fp_cell_op; auto.
    + left. apply slot_comm.
    + rewrite Hc. apply slot_comm.
  - intros k k' Hk Hk' Hne [E|E].
    + destruct Hs as [[Hb _]|Ha].
      * apply Hne. assert (E' : mslot C k num = mslot C k' num).
        { rewrite E. unfold mslot. now rewrite Hb, Hc. }
        apply slot_inj in E'; lia.
      * apply (Ha k' num k num); auto; lia.
    + apply (Hv k' k num); auto; lia.
  - intros k m1 Hk HS Hag. rewrite slot_comm. rewrite Hc at 1. rewrite slot_comm.
    assert (VA : valid m (mslot A k num)) by (apply HA; auto).
    assert (VC : valid m (mslot C k num)) by (apply HC; lia).
    assert (VX : valid m (padd (a_ptr x) k)) by (apply Hx; lia).
    rewrite run_cell_op by (eapply shape_valid; eauto).
    rewrite !Hag; [reflexivity| |].
    + intros k' Hk' Hne E. apply (Hv k k' num); auto; lia.
    + intros k' Hk' Hne E. destruct Hs as [[Hb _]|Ha].
      * assert (E' : mslot C k' num = mslot C k num). { rewrite E. unfold mslot. now rewrite Hb, Hc. }
        apply slot_inj in E'; lia.
      * apply (Ha k num k' num); auto; lia.
  - intros k Hk. now rewrite Nat.eqb_refl.
  - intros i j Hi Hj Hno. destruct (Nat.eqb_spec j num) as [->|]; auto. exfalso. apply (Hno i); auto. lia.
Qed.

(** ** diagonal *)
Lemma diag_len_min A : diag_len A = Nat.min (g_row A) (g_col A).
Proof. unfold diag_len. destruct (Nat.ltb_spec (g_row A) (g_col A)); lia. Qed.

Lemma data_begin A : g_first A = 0 -> g_data A = g_begin A.
Proof. intros H. unfold g_begin. rewrite H. symmetry. apply padd_0. Qed.

Lemma diag_s_ok (op : F -> F -> F) A alpha (m : mem) : g_first A = 0 -> mat_ok m A ->
  mcomputes (k_diag_s op A alpha) m A (fun i j => if i =? j then op (mel m A i j) alpha else mel m A i j).
Proof.
  intros H0 HA. unfold k_diag_s. rewrite (data_begin A H0). rewrite diag_len_min.
  apply (@line_kernel _ (fun i => (i, i)) _ (fun i => op (mel m A i i) alpha)
    (fun i p => p = mslot A i i)); cbn [fst snd]; auto.
  - intros k Hk. lia.
  - intros k k' _ _ E. injection E. auto.
  - intros k Hk. cbn. auto.
  - intros k k' Hk Hk' Hne E. apply slot_inj in E; lia.
  - intros k m1 Hk HS Hag. cbn zeta. fold (mslot A k k). cbn [run].
    assert (VA : valid m (mslot A k k)) by (apply HA; lia).
    rewrite ld_ok by (eapply shape_valid; eauto). cbn [bind]. rewrite st_ok by (eapply shape_valid; eauto). cbn [bind].
    rewrite Hag; [reflexivity|]. intros k' Hk' Hne E. apply slot_inj in E; lia.
  - intros k Hk. now rewrite Nat.eqb_refl.
  - intros i j Hi Hj Hno. destruct (Nat.eqb_spec i j) as [->|]; auto. exfalso. apply (Hno j); auto. lia.
Qed.

Lemma diag_v_ok (op : F -> F -> F) A x (m : mem) : g_first A = 0 -> mat_ok m A -> arg_ok m x ->
  a_len x = Nat.min (g_row A) (g_col A) -> vapart x A ->
  mcomputes (k_diag_v op A x) m A (fun i j => if i =? j then op (mel m A i j) (el m x i) else mel m A i j).
Proof.
  intros H0 HA Hx Hl Hv. unfold k_diag_v. rewrite (data_begin A H0). rewrite diag_len_min, Hl, Nat.eqb_refl.
  apply (@line_kernel _ (fun i => (i, i)) _ (fun i => op (mel m A i i) (el m x i))
    (fun i p => p = mslot A i i \/ p = padd (a_ptr x) i)); cbn [fst snd]; auto.
  - intros k Hk. lia.
  - intros k k' _ _ E. injection E. auto.
  - intros k Hk. cbn. auto.
  - intros k k' Hk Hk' Hne [E|E].
    + apply slot_inj in E; lia.
    + symmetry in E. apply (Hv k' k k) in E; auto; lia.
  - intros k m1 Hk HS Hag. cbn zeta. fold (mslot A k k). cbn [run].
    assert (VA : valid m (mslot A k k)) by (apply HA; lia).
    assert (VX : valid m (padd (a_ptr x) k)) by (apply Hx; lia).
    rewrite ld_ok by (eapply shape_valid; eauto). cbn [bind]. 
    rewrite ld_ok by (eapply shape_valid; eauto). cbn [bind]. rewrite st_ok by (eapply shape_valid; eauto). cbn [bind].
    rewrite !Hag; [reflexivity| |].
    + intros k' Hk' Hne E. symmetry in E. apply (Hv k k' k') in E; auto; lia.
    + intros k' Hk' Hne E. apply slot_inj in E; lia.
  - intros k Hk. now rewrite Nat.eqb_refl.
  - intros i j Hi Hj Hno. destruct (Nat.eqb_spec i j) as [->|]; auto. exfalso. apply (Hno j); auto. lia.
Qed.

(** ** reading a line into a vector *)
Lemma gather_ok N (src : nat -> ptr) (y : ptr) b (m : mem) : b = true ->
  (forall k, k < N -> valid m (src k)) -> window m y N -> (forall k l, k < N -> l < N -> src k <> padd y l) ->
  computes (mkKernel b N (fun i => v <-- src i ;; padd y i <== v ;; Ret tt)) m (mkArg y N) (fun i => cell m (src i)).
Proof.
  intros -> Hv Hy Hd.
  destruct (@slot_kernel F SF N (padd y) (fun i => v <-- src i ;; padd y i <== v ;; Ret tt) (fun i => cell m (src i))
    (fun i p => p = src i) m) as (m' & H1 & H2 & H3 & H4 & H5).
  - intros i j _ _ E. eapply padd_inj; eauto.
  - exact Hy.
  - intros i Hi. cbn. auto.
  - intros i j Hi Hj Hij E. apply (Hd j i); auto.
  - intros i m1 Hi HS Hag. cbn [run]. rewrite ld_ok by (eapply shape_valid; eauto). cbn [bind].
    rewrite st_ok by (eapply shape_valid; eauto). cbn [bind]. rewrite Hag; [reflexivity|].
    intros j Hj Hne E. apply (Hd i j); auto.
  - exists m'. unfold kernel_result, kernel_seq, written. cbn [k_assert k_n k_body assert_ bind a_ptr a_len]. auto.
Qed.

End Grid.
