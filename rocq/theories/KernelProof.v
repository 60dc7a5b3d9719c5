(** * KernelProof: element-wise kernels under every schedule. *)
From Verif Require Import Base Scalar Mem MemSpec ParProof VecModel.
Set Implicit Arguments.

Section KernelProof.
Context {F : Type} {SF : Scalar F}.
Notation mem := (mem F).
Notation prog := (prog F).

(** Generic loop rule: iteration [i] writes exactly the elements in [W i], giving each its
    final value [val p], provided the elements it reads are not written by others. *)
Lemma iter_loop N (body : nat -> prog unit) (W : nat -> ptr -> Prop) (val : ptr -> F) (m : mem) :
  (forall i j p, i < N -> j < N -> W i p -> W j p -> i = j) ->
  (forall i p, W i p \/ ~ W i p) ->
  (forall i m1, i < N -> same_shape m m1 ->
     (forall p, (forall j, j < i -> ~ W j p) -> cell m1 p = cell m p) ->
     exists m2, run (body i) m1 = Ok (m2, tt) /\ same_shape m1 m2 /\
       (forall p, W i p -> cell m2 p = val p) /\
       (forall p, ~ W i p -> cell m2 p = cell m1 p)) ->
  exists m', seq_for N body m = Ok m' /\ same_shape m m' /\
    (forall i p, i < N -> W i p -> cell m' p = val p) /\
    (forall p, (forall i, i < N -> ~ W i p) -> cell m' p = cell m p).
Proof.
  intros Hd Hdec Hb. unfold seq_for.
  destruct (@for0_inv mem (fun i m1 => same_shape m m1 /\
     (forall j p, j < i -> W j p -> cell m1 p = val p) /\
     (forall p, (forall j, j < i -> ~ W j p) -> cell m1 p = cell m p)) N
     (fun i m => '(m', _) <- run (body i) m ;; Ok m') m) as (m' & E & HS & H1 & H2).
  - split; [apply same_shape_refl|]. split; [intros; lia|auto].
  - intros i m1 Hi (HS & H1 & H2).
    destruct (Hb i m1 Hi HS H2) as (m2 & E & HS2 & G1 & G2).
    rewrite E. cbn [bind]. exists m2. split; auto. split; [eapply same_shape_trans; eauto|]. split.
    + intros j p Hj Hp. destruct (Nat.eq_dec j i) as [->|Hne]; [auto|].
      rewrite G2; [apply (H1 j); auto; lia|]. intros Hi'. assert (j = i) by (apply (Hd j i p); auto; lia). lia.
    + intros p Hp. rewrite G2; [apply H2; intros; apply Hp; lia|]. apply Hp. lia.
  - exists m'. auto.
Qed.

Lemma padd_inj (y : ptr) i j : padd y i = padd y j -> i = j.
Proof. unfold padd. intros H. inversion H. lia. Qed.

Lemma padd_0 (p : ptr) : padd p 0 = p.
Proof. unfold padd. destruct p. cbn. now rewrite Nat.add_0_r. Qed.

Lemma padd_padd (p : ptr) i j : padd (padd p i) j = padd p (i + j).
Proof. unfold padd. cbn. now rewrite Nat.add_assoc. Qed.

Lemma ptr_eq_dec (p q : ptr) : {p = q} + {p <> q}.
Proof. decide equality; apply Nat.eq_dec. Qed.

Lemma window_shape (m m1 : mem) p n : same_shape m m1 -> window m p n -> window m1 p n.
Proof. intros Hs Hw i Hi. eapply shape_valid; eauto. Qed.

(** *** y[i] = h(i) where h(i) is computed from the original memory *)
Lemma slot_kernel n (slot : nat -> ptr) (body : nat -> prog unit) (h : nat -> F) (R : nat -> ptr -> Prop) (m : mem) :
  (forall i j, i < n -> j < n -> slot i = slot j -> i = j) ->
  (forall i, i < n -> valid m (slot i)) ->
  (forall i, i < n -> fp (R i) (fun p => p = slot i) (body i)) ->
  (forall i j, i < n -> j < n -> i <> j -> ~ R j (slot i)) ->
  (forall i m1, i < n -> same_shape m m1 ->
     (forall p, (forall j, j < n -> j <> i -> slot j <> p) -> cell m1 p = cell m p) ->
     run (body i) m1 = Ok (mset m1 (slot i) (h i), tt)) ->
  exists m', par_result n body m m' /\ seq_for n body m = Ok m' /\ same_shape m m' /\
    (forall i, i < n -> cell m' (slot i) = h i) /\
    (forall p, (forall i, i < n -> slot i <> p) -> cell m' p = cell m p).
Proof.
  intros Hinj Hval Hfp HR Hrun.
  assert (HRF : race_free n body).
  { exists R, (fun i p => p = slot i). split; [exact Hfp|].
    intros i j p Hi Hj Hij ->. split; [apply HR; auto|]. intros E. apply Hij. auto. }
  destruct (@iter_loop n body (fun i p => p = slot i)
    (fun p => match find (fun i => ptr_eqb (slot i) p) (seq 0 n) with Some i => h i | None => f0 end) m)
    as (m' & E & HS & H1 & H2).
  - intros i j p Hi Hj -> H. auto.
  - intros i p. destruct (ptr_eq_dec p (slot i)); auto.
  - intros i m1 Hi HS Hag.
    rewrite (Hrun i m1); auto.
    + eexists. split; [reflexivity|]. split; [apply mset_shape|].
      assert (Hv : valid m1 (slot i)) by (eapply shape_valid; eauto).
      split.
      * intros p ->. rewrite cell_mset_same by auto.
        destruct (find (fun i0 => ptr_eqb (slot i0) (slot i)) (seq 0 n)) as [k|] eqn:Ef.
        -- apply find_some in Ef. destruct Ef as [Hk Ek]. apply in_seq in Hk.
           destruct (ptr_eqb_spec (slot k) (slot i)) as [Es|]; [|discriminate].
           rewrite (Hinj k i); auto; lia.
        -- exfalso. assert (Hin : In i (seq 0 n)) by (apply in_seq; lia).
           pose proof (find_none _ _ Ef i Hin) as Hn. cbn in Hn.
           destruct (ptr_eqb_spec (slot i) (slot i)); congruence.
      * intros p Hp. apply cell_mset_other; auto.
    + intros p Hp. apply Hag. intros j Hj ->. apply (Hp j); auto; lia.
  - exists m'. split; [now apply race_free_par|]. split; auto. split; auto. split.
    + intros i Hi. rewrite (H1 i (slot i)) by auto.
      destruct (find (fun i0 => ptr_eqb (slot i0) (slot i)) (seq 0 n)) as [k|] eqn:Ef.
      * apply find_some in Ef. destruct Ef as [Hk Ek]. apply in_seq in Hk.
        destruct (ptr_eqb_spec (slot k) (slot i)) as [Es|]; [|discriminate].
        rewrite (Hinj k i); auto; lia.
      * exfalso. assert (Hin : In i (seq 0 n)) by (apply in_seq; lia).
        pose proof (find_none _ _ Ef i Hin) as Hn. cbn in Hn.
        destruct (ptr_eqb_spec (slot i) (slot i)); congruence.
    + intros p Hp. apply H2. intros i Hi Heq. apply (Hp i Hi). auto.
Qed.

Lemma alias_other x y n i j : alias_ok x y n -> i < n -> j < n -> j <> i -> padd y j <> padd x i.
Proof.
  intros [->|H] Hi Hj Hn E.
  - apply padd_inj in E. auto.
  - apply (H i j Hi Hj). auto.
Qed.

Lemma map0_result v y n (m : mem) : window m y n ->
  exists m', par_result n (map0 v y) m m' /\ seq_for n (map0 v y) m = Ok m' /\ written m m' y n (fun _ => v).
Proof.
  intros Hy.
  destruct (@slot_kernel n (padd y) (map0 v y) (fun _ => v) (fun _ _ => False) m)
    as (m' & H1 & H2 & H3 & H4 & H5).
  - intros i j _ _ E. eapply padd_inj; eauto.
  - exact Hy.
  - intros i Hi. cbn. auto.
  - auto.
  - intros i m1 Hi HS _. unfold map0. cbn [run]. rewrite st_ok; [reflexivity|].
    eapply shape_valid; eauto.
  - exists m'. unfold written. auto.
Qed.

Lemma map1_result g a y n (m : mem) : window m a n -> window m y n -> alias_ok a y n ->
  exists m', par_result n (map1 g a y) m m' /\ seq_for n (map1 g a y) m = Ok m' /\
    written m m' y n (fun i => g (cell m (padd a i))).
Proof.
  intros Ha Hy Hal.
  destruct (@slot_kernel n (padd y) (map1 g a y) (fun i => g (cell m (padd a i)))
    (fun i p => p = padd a i) m) as (m' & H1 & H2 & H3 & H4 & H5).
  - intros i j _ _ E. eapply padd_inj; eauto.
  - exact Hy.
  - intros i Hi. cbn. auto.
  - intros i j Hi Hj Hij E. apply (@alias_other a y n j i Hal); auto.
  - intros i m1 Hi HS Hag. unfold map1. cbn [run].
    rewrite ld_ok by (eapply shape_valid; eauto). cbn [bind].
    rewrite st_ok by (eapply shape_valid; eauto). cbn [bind].
    rewrite Hag; [reflexivity|]. intros j Hj Hji. eapply alias_other; eauto.
  - exists m'. unfold written. auto.
Qed.

Lemma map2_result g a b y n (m : mem) :
  window m a n -> window m b n -> window m y n -> alias_ok a y n -> alias_ok b y n ->
  exists m', par_result n (map2 g a b y) m m' /\ seq_for n (map2 g a b y) m = Ok m' /\
    written m m' y n (fun i => g (cell m (padd a i)) (cell m (padd b i))).
Proof.
  intros Ha Hb Hy Hal Hbl.
  destruct (@slot_kernel n (padd y) (map2 g a b y) (fun i => g (cell m (padd a i)) (cell m (padd b i)))
    (fun i p => p = padd a i \/ p = padd b i) m) as (m' & H1 & H2 & H3 & H4 & H5).
  - intros i j _ _ E. eapply padd_inj; eauto.
  - exact Hy.
  - intros i Hi. cbn. auto.
  - intros i j Hi Hj Hij [E|E].
    + apply (@alias_other a y n j i Hal); auto.
    + apply (@alias_other b y n j i Hbl); auto.
  - intros i m1 Hi HS Hag. unfold map2. cbn [run].
    rewrite ld_ok by (eapply shape_valid; eauto). cbn [bind].
    rewrite ld_ok by (eapply shape_valid; eauto). cbn [bind].
    rewrite st_ok by (eapply shape_valid; eauto). cbn [bind].
    rewrite !Hag; [reflexivity| |]; intros j Hj Hji; eapply alias_other; eauto.
  - exists m'. unfold written. auto.
Qed.

Lemma alias_refl x n : alias_ok x x n.
Proof. left. reflexivity. Qed.

End KernelProof.
