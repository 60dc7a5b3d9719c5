(** * GenRandProof: random structure generators *)
From Coq Require Import ZArith Sorting.Sorted Permutation.
From Verif Require Import Base Scalar Spec Loops DenseModel CooModel Observe CooProof CooSortProof CooMiscProof SumFacts
  TensorModel TensorSpec TensorProof TensorCooProof GenModel GenProof.
Set Implicit Arguments.

Section Fibre.
Context {F : Type} {SF : Scalar F}.
Variables St K P : Type.
Variable at_ : St -> K -> res F.
Variable insert_ : St -> K -> F -> res St.
Variable ents : St -> list (K * F).
Variable wf : St -> Prop.
Variable inK : K -> Prop.
Variable keyp : P -> nat -> K.
Variable N nnzrow : nat.
Variable val : F.
Variable draw : nat -> nat.
Hypothesis K_dec : forall k k' : K, {k = k'} + {k <> k'}.
Hypothesis Hat : forall s k, wf s -> inK k -> exists x, at_ s k = Ok x /\
  ((exists v, In (k, v) (ents s)) -> In (k, x) (ents s)) /\ (~ (exists v, In (k, v) (ents s)) -> x = f0).
Hypothesis Hins : forall s k v, wf s -> inK k -> exists s', insert_ s k v = Ok s' /\ wf s' /\ ents s' = ents s ++ [(k, v)].
Hypothesis Hkey : forall p p' j j', keyp p j = keyp p' j' -> p = p' /\ j = j'.
Hypothesis Hval : feqb val f0 = false.
Hypothesis H00 : feqb (f0 : F) f0 = true.
Hypothesis Hdraw : forall k, draw k < N.

Definition fair : Prop := forall c k, c < N -> exists k', k <= k' /\ draw k' = c.

Definition allval (s : St) : Prop := forall k v, In (k, v) (ents s) -> v = val.
Definition cols (p : P) (L : list nat) (s : St) : Prop :=
  NoDup L /\ (forall j, In j L -> j < N) /\ forall j, In j L <-> In (keyp p j, val) (ents s).

Local Notation fib p := (random_fibre at_ insert_ (keyp p)).

Lemma in_key_dec (k : K) (l : list (K * F)) : (exists v, In (k, v) l) \/ ~ exists v, In (k, v) l.
Proof.
  induction l as [|[k' v'] l IH]; [right; intros [v []]|].
  destruct IH as [[v H]|H]; [left; exists v; right; auto|].
  destruct (K_dec k' k) as [->|Hn]; [left; exists v'; left; auto|].
  right. intros [v [E|E]]; [congruence|]. apply H. eauto.
Qed.

(** one draw *)
Lemma draw_step p L s k : wf s -> allval s -> cols p L s -> (forall j, j < N -> inK (keyp p j)) ->
  exists x s', at_ s (keyp p (draw k)) = Ok x /\ insert_ s (keyp p (draw k)) val = Ok s' /\ wf s' /\ allval s' /\
    ents s' = ents s ++ [(keyp p (draw k), val)] /\
    ((In (draw k) L /\ feqb x f0 = false /\ cols p L s') \/
     (~ In (draw k) L /\ feqb x f0 = true /\ cols p (draw k :: L) s')).
Proof.
  intros W HA (HN & HL & HC) HK.
  destruct (Hat W (HK _ (Hdraw k))) as (x & Ex & X1 & X2).
  destruct (@Hins s (keyp p (draw k)) val W (HK _ (Hdraw k))) as (s' & Es & W' & HE).
  exists x, s'. split; auto. split; auto. split; auto. split.
  { intros q v Hv. rewrite HE in Hv. apply in_app_iff in Hv. destruct Hv as [Hv|[Hv|[]]]; [eauto|congruence]. }
  split; auto.
  destruct (in_dec Nat.eq_dec (draw k) L) as [Hin|Hin].
  - left. split; auto. apply HC in Hin.
    assert (In (keyp p (draw k), x) (ents s)) as Hx by (apply X1; eauto). apply HA in Hx. subst x.
    split; auto. split; auto. split; auto. intros j. rewrite HC, HE, in_app_iff. cbn. split; auto.
    intros [?|[E|[]]]; auto. injection E as E. destruct (Hkey E) as [_ <-]. auto.
  - right. split; auto. rewrite X2.
    2:{ intros [v Hv]. apply Hin. apply HC. pose proof (HA _ _ Hv). subst v. auto. }
    split; auto. split; [constructor; auto|]. split.
    { intros j [<-|?]; auto. }
    intros j. rewrite HE, in_app_iff. cbn. rewrite HC. split.
    + intros [<-|?]; auto.
    + intros [?|[E|[]]]; auto. injection E as E. destruct (Hkey E) as [_ <-]. auto.
Qed.

Lemma fibre_ok p (HK : forall j, j < N -> inK (keyp p j)) fuel : forall left L s k, wf s -> allval s -> cols p L s ->
  match fib p fuel draw left val (s, k) with
  | Ok (s', k') => exists js L', ents s' = ents s ++ map (fun j => (keyp p j, val)) js /\
      (forall j, In j js -> j < N) /\ wf s' /\ allval s' /\ cols p L' s' /\ length L' = length L + left
  | NoFuel => True
  | _ => False
  end.
Proof.
  induction fuel as [|fuel IH]; intros left L s k W HA HC; destruct left as [|left]; cbn [random_fibre]; auto.
  - exists [], L. cbn. rewrite app_nil_r. repeat (split; auto). intros j [].
  - exists [], L. cbn. rewrite app_nil_r. repeat (split; auto). intros j [].
  - destruct (@draw_step p L s k W HA HC HK) as (x & s' & -> & Es & W' & HA' & HE & D). cbn [bind]. rewrite Es. cbn [bind].
    destruct D as [(Hin & -> & HC')|(Hin & -> & HC')]; cbn [negb].
    + specialize (IH (S left) L s' (S k) W' HA' HC').
      destruct (fib p fuel draw (S left) val (s', S k)) as [[s2 k2]| | | |]; auto.
      destruct IH as (js & L' & HE2 & B). exists (draw k :: js), L'. rewrite HE2, HE, <- app_assoc. cbn.
      split; auto. destruct B as (B & B'). split; auto. intros j [<-|?]; auto.
    + specialize (IH left (draw k :: L) s' (S k) W' HA' HC').
      destruct (fib p fuel draw left val (s', S k)) as [[s2 k2]| | | |]; auto.
      destruct IH as (js & L' & HE2 & B & W2 & HA2 & HC2 & HL). exists (draw k :: js), L'. rewrite HE2, HE, <- app_assoc. cbn.
      split; auto. split; [intros j [<-|?]; auto|]. repeat (split; auto). cbn in HL. lia.
Qed.

(** if every column keeps being drawn, the loop ends *)
Lemma missing_col (L : list nat) : NoDup L -> length L < N -> (forall j, In j L -> j < N) -> exists c, c < N /\ ~ In c L.
Proof.
  intros HN HL HB.
  destruct (Forall_Exists_dec (fun c => In c L) (fun c => in_dec Nat.eq_dec c L) (seq 0 N)) as [H|H].
  - exfalso. assert (incl (seq 0 N) L) as HI by (intros c Hc; eapply Forall_forall in H; eauto).
    apply NoDup_incl_length in HI; [|apply seq_NoDup]. rewrite seq_length in HI. lia.
  - apply Exists_exists in H. destruct H as (c & Hc & Hn). apply in_seq in Hc. exists c. split; auto. lia.
Qed.

Lemma fibre_term p (HK : forall j, j < N -> inK (keyp p j)) (HF : fair) : forall left L s k, wf s -> allval s -> cols p L s ->
  length L + left <= N ->
  exists fuel0 st', forall fuel, fuel0 <= fuel -> fib p fuel draw left val (s, k) = Ok st'.
Proof.
  induction left as [|left IHl]; intros L s k W HA HC HLe.
  - exists 0, (s, k). intros [|fuel] _; reflexivity.
  - destruct HC as (HN & HB & HC). destruct (missing_col HN ltac:(lia) HB) as (c & Hc & Hnc).
    destruct (HF c k Hc) as (k' & Hk' & Ec).
    remember (k' - k) as d eqn:Ed. revert s k W HA HC Hk' Ed.
    induction d as [d IHd] using lt_wf_ind. intros s k W HA HC Hk' Ed.
    destruct (@draw_step p L s k W HA (conj HN (conj HB HC)) HK) as (x & s' & Ea & Es & W' & HA' & HE & D).
    destruct D as [(Hin & Ex & HC')|(Hin & Ex & HC')].
    + assert (k <> k') by (intros ->; congruence).
      destruct HC' as (_ & _ & HC').
      destruct (IHd (d - 1)) with (s := s') (k := S k) as (f1 & st' & R); auto; try lia.
      exists (S f1), st'. intros [|fuel] Hf; [lia|]. cbn [random_fibre]. rewrite Ea. cbn [bind]. rewrite Es. cbn [bind].
      rewrite Ex. cbn [negb]. apply R. lia.
    + destruct (IHl (draw k :: L) s' (S k)) as (f1 & st' & R); auto; [cbn; lia|].
      exists (S f1), st'. intros [|fuel] Hf; [lia|]. cbn [random_fibre]. rewrite Ea. cbn [bind]. rewrite Es. cbn [bind].
      rewrite Ex. cbn [negb]. apply R. lia.
Qed.

(** several fibres *)
Definition Inv (done : list P) (s : St) : Prop :=
  wf s /\ allval s /\
  (forall k v, In (k, v) (ents s) -> exists p j, In p done /\ j < N /\ k = keyp p j) /\
  forall p, In p done -> exists L, length L = nnzrow /\ cols p L s.

Definition proc (body : nat -> St * nat -> res (St * nat)) (done l : list P) : Prop :=
  (forall fuel st, Inv done (fst st) ->
     match body fuel st with Ok st' => Inv (done ++ l) (fst st') | NoFuel => True | _ => False end) /\
  (fair -> forall st, Inv done (fst st) -> exists f0 st', forall fuel, f0 <= fuel -> body fuel st = Ok st').

Lemma proc_fibre p done : ~ In p done -> (forall j, j < N -> inK (keyp p j)) -> nnzrow <= N ->
  proc (fun fuel st => fib p fuel draw nnzrow val st) done [p].
Proof.
  intros Hp HK HnN.
  assert (C0 : forall s, Inv done s -> cols p [] s).
  { intros s (W & HA & HE & HD). split; [constructor|]. split; [intros j []|]. intros j. split; [intros []|].
    intros H. destruct (HE _ _ H) as (p' & j' & Hd & _ & E). apply Hkey in E. destruct E as [<- _]. contradiction. }
  split.
  - intros fuel [s k] HI. pose proof (C0 s HI) as HC0. destruct HI as (W & HA & HE & HD). cbn [fst] in *.
    pose proof (@fibre_ok p HK fuel nnzrow [] s k W HA HC0) as R.
    destruct (fib p fuel draw nnzrow val (s, k)) as [[s' k']| | | |]; auto.
    destruct R as (js & L' & HE' & HB & W' & HA' & HC' & HL). cbn [fst]. split; auto. split; auto. split.
    + intros q v Hq. rewrite HE' in Hq. apply in_app_iff in Hq. destruct Hq as [Hq|Hq].
      * destruct (HE _ _ Hq) as (p' & j & ? & ? & ->). exists p', j. split; auto. apply in_app_iff; auto.
      * apply in_map_iff in Hq. destruct Hq as (j & E & Hj). injection E as <- <-. exists p, j. split; auto.
        apply in_app_iff. cbn. auto.
    + intros q Hq. apply in_app_iff in Hq. destruct Hq as [Hq|[<-|[]]]; [|exists L'; auto].
      destruct (HD q Hq) as (L & EL & HN & HBL & HCL). exists L. split; auto. split; auto. split; auto.
      intros j. rewrite HCL, HE', in_app_iff. split; auto. intros [?|H]; auto.
      apply in_map_iff in H. destruct H as (j' & E & _). injection E as E. apply Hkey in E. destruct E as [<- _]. contradiction.
  - intros HF [s k] HI. pose proof (C0 s HI) as HC0. destruct HI as (W & HA & HE & HD). cbn [fst] in *.
    apply (@fibre_term p HK HF nnzrow [] s k W HA HC0). cbn. lia.
Qed.

Lemma proc_for lo hi (body : nat -> nat -> St * nat -> res (St * nat)) done f :
  (forall i, lo <= i < hi -> proc (body i) (done ++ flat_map f (seq lo (i - lo))) (f i)) ->
  proc (fun fuel st => for_ lo hi (fun i st => body i fuel st) st) done (flat_map f (seq lo (hi - lo))).
Proof.
  intros H. unfold for_. remember (hi - lo) as n eqn:En.
  assert (G : forall n, n <= hi - lo ->
    proc (fun fuel st => iter_ n lo (fun i st => body i fuel st) st) done (flat_map f (seq lo n))).
  { clear n En. induction n as [|n IH]; intros Hn.
    - split.
      + intros fuel st HI. cbn. rewrite app_nil_r. auto.
      + intros _ st HI. exists 0, st. auto.
    - destruct (IH ltac:(lia)) as [I1 I2].
      destruct (H (lo + n) ltac:(lia)) as [B1 B2]. replace (lo + n - lo) with n in * by lia.
      assert (ES : forall fuel st, iter_ (S n) lo (fun i st => body i fuel st) st =
         bind (iter_ n lo (fun i st => body i fuel st) st) (fun st' => body (lo + n) fuel st')).
      { intros fuel st. replace (S n) with (n + 1) by lia. rewrite iter_app. cbn [iter_].
        destruct (iter_ n lo _ st) as [st'| | | |]; cbn [bind]; auto. destruct (body (lo + n) fuel st'); auto. }
      rewrite seq_S, flat_map_app. cbn [flat_map]. rewrite app_nil_r. split.
      + intros fuel st HI. rewrite ES. specialize (I1 fuel st HI).
        destruct (iter_ n lo (fun i st => body i fuel st) st) as [st'| | | |]; cbn [bind]; auto.
        specialize (B1 fuel st' I1). rewrite app_assoc. auto.
      + intros HF st HI. destruct (I2 HF st HI) as (fa & sa & Ra).
        assert (HIa : Inv (done ++ flat_map f (seq lo n)) (fst sa)).
        { specialize (I1 fa st HI). rewrite Ra in I1 by auto. auto. }
        destruct (B2 HF sa HIa) as (fb & sb & Rb). exists (Nat.max fa fb), sb. intros fuel Hf. rewrite ES, Ra by lia.
        cbn [bind]. apply Rb. lia. }
  apply G. lia.
Qed.

(** exactly nnzrow entries in every fibre of a duplicate-free list with the same positions *)
Lemma fibre_count p L s (l : list (K * F)) (f : K * F -> bool) :
  cols p L s -> allval s -> NoDup (map fst l) -> (forall e, In e l -> In e (ents s)) ->
  (forall k v, In (k, v) (ents s) -> exists v', In (k, v') l) ->
  (forall e, In e l -> (f e = true <-> exists j, fst e = keyp p j)) ->
  length (filter f l) = length L.
Proof.
  intros (HN & HB & HC) HA HD HI1 HI2 Hf.
  rewrite <- (map_length (fun j => (keyp p j, val)) L). apply Permutation_length. apply NoDup_Permutation.
  - apply NoDup_filter. eapply NoDup_map_inv. exact HD.
  - apply FinFun.Injective_map_NoDup; auto. intros j j' E. injection E as E. apply Hkey in E. tauto.
  - intros [k v]. rewrite filter_In, in_map_iff. split.
    + intros [Hin Ht]. apply (Hf _ Hin) in Ht. destruct Ht as (j & E). cbn in E. subst k. exists j.
      apply HI1 in Hin. pose proof (HA _ _ Hin). subst v. split; auto. apply HC. auto.
    + intros (j & E & Hj). injection E as <- <-. apply HC in Hj. destruct (HI2 _ _ Hj) as (v' & Hv').
      pose proof (HA _ _ (HI1 _ Hv')). subst v'. split; auto. apply (Hf _ Hv'). cbn. eauto.
Qed.

End Fibre.

(** ** matrices *)
Section RandMatrix.
Context {F : Type} {SF : Scalar F}.

Definition mat_cols (M N nnzrow : nat) (val : F) (c : coo F) : Prop :=
  coo_ok c /\ c_row c = M /\ c_col c = N /\
  StronglySorted pos_lt (map fst (coo_entries c)) /\
  (forall i j v, In (i, j, v) (coo_entries c) -> i < M /\ j < N /\ v = val) /\
  forall i, i < M -> length (filter (fun t => fst (fst t) =? i) (coo_entries c)) = nnzrow.

Lemma ssorted_pos_NoDup (l : list (nat * nat)) : StronglySorted pos_lt l -> NoDup l.
Proof.
  induction 1 as [|x l HS IH HF]; constructor; auto. intros H. rewrite Forall_forall in HF.
  apply HF in H. destruct H as [H|[_ H]]; lia.
Qed.

Lemma random_matrix_ok draw M N nnzrow val :
  feqb val f0 = false -> feqb (f0 : F) f0 = true -> (forall k, draw k < N) -> 0 < M -> 0 < nnzrow < N ->
  (forall fuel, match random_structure_matrix fuel draw M N nnzrow val with
     | Ok c => mat_cols M N nnzrow val c | NoFuel => True | _ => False end) /\
  (fair N draw -> exists f0 c, forall fuel, f0 <= fuel -> random_structure_matrix fuel draw M N nnzrow val = Ok c).
Proof.
  intros Hv H00 Hd HM Hn.
  set (at_ := fun (c : coo F) (p : nat * nat) => coo_at c (fst p) (snd p)).
  set (in_ := fun (c : coo F) (p : nat * nat) v => coo_insert c (fst p) (snd p) v).
  set (inK := fun p : nat * nat => fst p < M /\ snd p < N).
  assert (Hat : forall s k, GenProof.good M N s -> inK k -> exists x, at_ s k = Ok x /\
     ((exists v, In (k, v) (coo_entries s)) -> In (k, x) (coo_entries s)) /\ (~ (exists v, In (k, v) (coo_entries s)) -> x = f0)).
  { intros s [i j] (W & Hr & Hc) [Hi Hj]. cbn in Hi, Hj. exists (last_wins (coo_entries s) i j). split.
    - unfold at_. cbn [fst snd]. apply coo_at_ok; auto; lia.
    - apply last_wins_in. }
  assert (Hins : forall s k v, GenProof.good M N s -> inK k -> exists s', in_ s k v = Ok s' /\ GenProof.good M N s' /\ coo_entries s' = coo_entries s ++ [(k, v)]).
  { intros s [i j] v G [Hi Hj]. cbn in Hi, Hj. apply adds_insert; auto; lia. }
  assert (Hkey : forall p p' j j' : nat, (p, j) = (p', j') -> p = p' /\ j = j') by (intros; split; congruence).
  assert (Kdec : forall k k' : nat * nat, {k = k'} + {k <> k'}) by (decide equality; apply Nat.eq_dec).
  assert (PR : @proc F (coo F) (nat * nat) nat (@coo_entries F) (GenProof.good M N) (@pair nat nat) N nnzrow val draw
      (fun fuel st => for_ 0 M (fun i st => random_row i fuel draw nnzrow val st) st) [] (flat_map (fun i => [i]) (seq 0 (M - 0)))).
  { apply (@proc_for F (coo F) (nat * nat) nat (@coo_entries F) (GenProof.good M N) (@pair nat nat) N nnzrow val draw
      0 M (fun i fuel st => random_row i fuel draw nnzrow val st) [] (fun i => [i])).
    intros i Hi. unfold random_row.
    apply (@proc_fibre F SF (coo F) (nat * nat) nat at_ in_ (@coo_entries F) (GenProof.good M N) inK (@pair nat nat) N nnzrow val draw Hat Hins Hkey Hv H00 Hd).
    - cbn [app]. rewrite in_flat_seq. intros (k & Hk & [E|[]]). lia.
    - intros j Hj. split; cbn; lia.
    - lia. }
  destruct PR as [P1 P2].
  assert (I0 : @Inv F (coo F) (nat * nat) nat (@coo_entries F) (GenProof.good M N) (@pair nat nat) N nnzrow val [] (coo_new M N)).
  { split; [apply good_new|]. split; [intros k v []|]. split; [intros k v []|intros p []]. }
  unfold random_structure_matrix. rewrite (proj2 (Nat.leb_gt _ _)) by lia. cbn [negb require_ bind].
  assert (FIN : forall c, @Inv F (coo F) (nat * nat) nat (@coo_entries F) (GenProof.good M N) (@pair nat nat) N nnzrow val (flat_map (fun i => [i]) (seq 0 (M - 0))) c ->
     exists c', coo_sort c true = Ok c' /\ mat_cols M N nnzrow val c').
  { intros c ((W & Hr & Hc) & HA & HE & HD).
    assert (InD : forall i, i < M -> In i (flat_map (fun i => [i]) (seq 0 (M - 0)))).
    { intros i Hi. apply in_flat_seq. exists i. split; [lia|cbn; auto]. }
    assert (Hne : 0 < c_nnz c).
    { rewrite <- (coo_entries_length W). destruct (HD 0 (InD 0 HM)) as (L & EL & _ & _ & HC).
      destruct L as [|j L]; [cbn in EL; lia|]. assert (In (0, j, val) (coo_entries c)) as Hin by (apply HC; cbn; auto).
      destruct (coo_entries c); [destruct Hin|cbn; lia]. }
    destruct (@coo_sort_merge_at F SF c W Hne) as (c' & Es & W' & Hr' & Hc' & _ & HS & HI & HP & _).
    exists c'. split; auto. split; auto. split; [lia|]. split; [lia|]. split; auto. split.
    - intros i j v Hin. apply HI in Hin. destruct (HE _ _ Hin) as (p & j' & Hp & Hj & E). injection E as <- <-.
      apply in_flat_seq in Hp. destruct Hp as (k & Hk & [->|[]]). split; [lia|]. split; auto. eapply HA; eauto.
    - intros i Hi. destruct (HD i (InD i Hi)) as (L & EL & HC). rewrite <- EL.
      eapply (@fibre_count F (coo F) (nat * nat) nat (@coo_entries F) (@pair nat nat)); eauto.
      + apply ssorted_pos_NoDup; auto.
      + intros [[r j] v] _. cbn. rewrite Nat.eqb_eq. split; [intros ->; eauto|intros (j' & E); congruence]. }
  split.
  - intros fuel. specialize (P1 fuel (coo_new M N, 0) I0).
    destruct (for_ 0 M (fun i st => random_row i fuel draw nnzrow val st) (coo_new M N, 0)) as [[c k]| | | |]; cbn [bind]; auto.
    destruct (FIN c P1) as (c' & -> & R). auto.
  - intros HF. destruct (P2 HF (coo_new M N, 0) I0) as (fu & [c k] & R).
    pose proof (P1 fu (coo_new M N, 0) I0) as Q. rewrite R in Q by auto. destruct (FIN c Q) as (c' & Es & _).
    exists fu, c'. intros fuel Hf. rewrite R by auto. cbn [bind]. auto.
Qed.

Lemma random_matrix_throw fuel draw M N nnzrow (val : F) : N <= nnzrow -> random_structure_matrix fuel draw M N nnzrow val = Throw.
Proof. intros H. unfold random_structure_matrix. rewrite (proj2 (Nat.leb_le _ _)) by auto. reflexivity. Qed.

(** no entries are asked for: the sort makes up an unreadable one *)
Lemma random_matrix_empty fuel draw M N (val : F) : 0 < N ->
  exists c, random_structure_matrix fuel draw M N 0 val = Ok c /\ c_nnz c = 1 /\ coo_at c 0 0 = UB.
Proof.
  intros HN. unfold random_structure_matrix. rewrite (proj2 (Nat.leb_gt _ _)) by lia. cbn [negb require_ bind].
  rewrite (@for_pure _ 0 M (fun _ st => st)).
  2:{ intros i s _. unfold random_row. destruct fuel; reflexivity. }
  assert (E : forall l (s : coo F * nat), fold_left (fun s0 (_ : nat) => s0) l s = s) by (induction l; auto).
  rewrite E. cbn [bind]. eexists. split; [reflexivity|]. split; reflexivity.
Qed.

End RandMatrix.

(** ** tensors *)
Section RandTensor.
Context {F : Type} {SF : Scalar F}.

Definition tens_cols (lead : list nat) (L nnzrow : nat) (val : F) (q : tcoo F) : Prop :=
  tc_ok q /\ q_shape q = lead ++ [L] /\ tc_inside q /\
  StronglySorted lex_lt (map fst (tc_entries q)) /\
  (forall p v, In (p, v) (tc_entries q) -> v = val) /\
  forall p, inside lead p ->
    length (filter (fun e => if list_eq_dec Nat.eq_dec (removelast (fst e)) p then true else false) (tc_entries q)) = nnzrow.

Lemma lex_lt_irrefl l : ~ lex_lt l l.
Proof. intros [_ H]. auto. Qed.

Lemma ssorted_lex_NoDup (l : list (list nat)) : StronglySorted lex_lt l -> NoDup l.
Proof.
  induction 1 as [|x l HS IH HF]; constructor; auto. intros H. rewrite Forall_forall in HF.
  apply HF in H. apply lex_lt_irrefl in H. auto.
Qed.

Lemma snoc_inj (p p' : list nat) j j' : p ++ [j] = p' ++ [j'] -> p = p' /\ j = j'.
Proof. apply app_inj_tail. Qed.

(** any loop nest that visits each leading position once *)
Lemma random_tensor_gen draw lead L nnzrow val (loops : nat -> tcoo F * nat -> res (tcoo F * nat)) (G : list (list nat)) :
  feqb val f0 = false -> feqb (f0 : F) f0 = true -> (forall k, draw k < L) -> 0 < nnzrow < L ->
  fits_int (lead ++ [L]) -> G <> [] -> (forall p, In p G <-> inside lead p) ->
  @proc F (tcoo F) (list nat) (list nat) (@tc_entries F) (fun q => tc_ok q /\ q_shape q = lead ++ [L])
    (fun p j => p ++ [j]) L nnzrow val draw loops [] G ->
  let run fuel := ('(q, _) <- loops fuel (tc_new (lead ++ [L]), 0) ;; tc_sort q true) in
  (forall fuel, match run fuel with Ok q => tens_cols lead L nnzrow val q | NoFuel => True | _ => False end) /\
  (fair L draw -> exists f0 q, forall fuel, f0 <= fuel -> run fuel = Ok q).
Proof.
  intros Hv H00 Hd Hn Hfit HG HGi [P1 P2] run.
  set (wf := fun q : tcoo F => tc_ok q /\ q_shape q = lead ++ [L]) in *.
  assert (I0 : @Inv F (tcoo F) (list nat) (list nat) (@tc_entries F) wf (fun p j => p ++ [j]) L nnzrow val [] (tc_new (lead ++ [L]))).
  { split; [split; [repeat split; cbn; lia|reflexivity]|]. split; [intros k v []|]. split; [intros k v []|intros p []]. }
  assert (FIN : forall q, @Inv F (tcoo F) (list nat) (list nat) (@tc_entries F) wf (fun p j => p ++ [j]) L nnzrow val G q ->
     exists q', tc_sort q true = Ok q' /\ tens_cols lead L nnzrow val q').
  { intros q ((W & Hs) & HA & HE & HD).
    assert (Hin : tc_inside q).
    { intros p v Hp. destruct (HE _ _ Hp) as (p0 & j & Hp0 & Hj & ->). apply HGi in Hp0. rewrite Hs.
      apply Forall2_app; auto. }
    assert (Hne : 0 < q_nnz q).
    { rewrite <- (tc_entries_length W). destruct G as [|p0 G']; [congruence|].
      destruct (HD p0) as (L0 & EL & _ & _ & HC); [cbn; auto|].
      destruct L0 as [|j L0]; [cbn in EL; lia|]. assert (In (p0 ++ [j], val) (tc_entries q)) as Hi by (apply HC; cbn; auto).
      destruct (tc_entries q); [destruct Hi|cbn; lia]. }
    destruct (@tc_sort_merge F SF q W Hin) as (q' & Es & W' & Hin' & Hs' & HS & HI & HP & _); auto.
    { rewrite Hs. exact Hfit. }
    exists q'. split; auto. split; auto. split; [congruence|]. split; auto. split; auto. split.
    - intros p v Hp. apply HI in Hp. eapply HA; eauto.
    - intros p Hp. destruct (HD p (proj2 (HGi p) Hp)) as (L0 & EL & HC). rewrite <- EL.
      eapply (@fibre_count F (tcoo F) (list nat) (list nat) (@tc_entries F) (fun p j => p ++ [j])); eauto.
      + intros; apply snoc_inj; auto.
      + apply ssorted_lex_NoDup; auto.
      + intros [k v] Hk. cbn [fst]. destruct (HE _ _ (HI _ Hk)) as (p0 & j0 & _ & _ & ->).
        rewrite removelast_last. destruct (list_eq_dec Nat.eq_dec p0 p) as [->|Hne'].
        * split; eauto.
        * split; [discriminate|]. intros (j & E). apply snoc_inj in E. tauto. }
  subst run. split.
  - intros fuel. cbv beta. specialize (P1 fuel (tc_new (lead ++ [L]), 0) I0).
    destruct (loops fuel (tc_new (lead ++ [L]), 0)) as [[q k]| | | |]; cbn [bind]; auto.
    destruct (FIN q P1) as (q' & -> & R). auto.
  - intros HF. destruct (P2 HF (tc_new (lead ++ [L]), 0) I0) as (fu & [q k] & R).
    pose proof (P1 fu (tc_new (lead ++ [L]), 0) I0) as Q. rewrite R in Q by auto. destruct (FIN q Q) as (q' & Es & _).
    exists fu, q'. intros fuel Hf. rewrite R by auto. cbn [bind]. auto.
Qed.

(** one fibre *)
Lemma trow_proc draw lead L nnzrow val p done :
  feqb val f0 = false -> feqb (f0 : F) f0 = true -> (forall k, draw k < L) -> nnzrow <= L ->
  inside lead p -> ~ In p done ->
  @proc F (tcoo F) (list nat) (list nat) (@tc_entries F) (fun q => tc_ok q /\ q_shape q = lead ++ [L])
    (fun p j => p ++ [j]) L nnzrow val draw (fun fuel st => random_trow p fuel draw nnzrow val st) done [p].
Proof.
  intros Hv H00 Hd Hn Hp Hf. unfold random_trow.
  apply (@proc_fibre F SF (tcoo F) (list nat) (list nat) (@tc_at F SF) (@tc_insert F SF) (@tc_entries F)
    (fun q => tc_ok q /\ q_shape q = lead ++ [L]) (fun _ => True) (fun p j => p ++ [j]) L nnzrow val draw); auto.
  - intros s k (W & Hs) _. exists (last_at (tc_entries s) k). split; [apply tc_at_ok; auto|]. apply last_at_in.
  - intros s k v (W & Hs) _. destruct (@tc_insert_ok F SF s k v W) as (q' & E & W' & Hs' & HE).
    exists q'. split; auto. split; auto. split; auto. congruence.
  - intros; apply snoc_inj; auto.
Qed.

Lemma inside_cons d ds x xs : inside (d :: ds) (x :: xs) <-> x < d /\ inside ds xs.
Proof. unfold inside. split; [intros H; inversion H; auto|intros [? ?]; constructor; auto]. Qed.
Lemma inside_nil p : inside [] p <-> p = [].
Proof. unfold inside. split; [intros H; inversion H; auto|intros ->; constructor]. Qed.
Lemma inside_cons_inv d ds p : inside (d :: ds) p -> exists x xs, p = x :: xs /\ x < d /\ inside ds xs.
Proof. unfold inside. intros H. inversion H; subst. eauto. Qed.

Lemma random_tensor2_ok draw M L nnzrow val :
  feqb val f0 = false -> feqb (f0 : F) f0 = true -> (forall k, draw k < L) -> 0 < nnzrow < L -> 0 < M ->
  fits_int [M; L] ->
  (forall fuel, match random_structure_tensor2 fuel draw M L nnzrow val with
     | Ok q => tens_cols [M] L nnzrow val q | NoFuel => True | _ => False end) /\
  (fair L draw -> exists f0 q, forall fuel, f0 <= fuel -> random_structure_tensor2 fuel draw M L nnzrow val = Ok q).
Proof.
  intros Hv H00 Hd Hn HM Hfit. unfold random_structure_tensor2. rewrite (proj2 (Nat.leb_gt _ _)) by lia. cbn [negb require_ bind].
  apply (@random_tensor_gen draw [M] L nnzrow val
    (fun fuel st => for_ 0 M (fun i st => random_trow [i] fuel draw nnzrow val st) st) (flat_map (fun i => [[i]]) (seq 0 (M - 0)))); auto.
  - destruct M; [lia|]. discriminate.
  - intros p. rewrite in_flat_seq. split.
    + intros (k & Hk & [<-|[]]). apply inside_cons. split; [lia|]. apply inside_nil. auto.
    + intros H. apply inside_cons_inv in H. destruct H as (x & xs & -> & Hx & H). apply inside_nil in H. subst.
      exists x. split; [lia|cbn; auto].
  - apply (@proc_for F (tcoo F) (list nat) (list nat) (@tc_entries F) _ (fun p j => p ++ [j]) L nnzrow val draw
      0 M (fun i fuel st => random_trow [i] fuel draw nnzrow val st) [] (fun i => [[i]])).
    intros i Hi. apply trow_proc; auto; try lia.
    + apply inside_cons. split; [lia|]. apply inside_nil. auto.
    + cbn [app]. rewrite in_flat_seq. intros (k & Hk & [E|[]]). injection E as ->. lia.
Qed.

Lemma random_tensor3_ok draw M N L nnzrow val :
  feqb val f0 = false -> feqb (f0 : F) f0 = true -> (forall k, draw k < L) -> 0 < nnzrow < L -> 0 < M -> 0 < N ->
  fits_int [M; N; L] ->
  (forall fuel, match random_structure_tensor3 fuel draw M N L nnzrow val with
     | Ok q => tens_cols [M; N] L nnzrow val q | NoFuel => True | _ => False end) /\
  (fair L draw -> exists f0 q, forall fuel, f0 <= fuel -> random_structure_tensor3 fuel draw M N L nnzrow val = Ok q).
Proof.
  intros Hv H00 Hd Hn HM HN Hfit. unfold random_structure_tensor3. rewrite (proj2 (Nat.leb_gt _ _)) by lia. cbn [negb require_ bind].
  set (row i := flat_map (fun j => [[i; j]]) (seq 0 (N - 0))).
  apply (@random_tensor_gen draw [M; N] L nnzrow val
    (fun fuel st => for_ 0 M (fun i st => for_ 0 N (fun j st => random_trow [i; j] fuel draw nnzrow val st) st) st)
    (flat_map row (seq 0 (M - 0)))); auto.
  - destruct M; [lia|]. destruct N; [lia|]. discriminate.
  - intros p. rewrite in_flat_seq. split.
    + intros (i & Hi & H). apply in_flat_seq in H. destruct H as (j & Hj & [<-|[]]).
      apply inside_cons. split; [lia|]. apply inside_cons. split; [lia|]. apply inside_nil. auto.
    + intros H. apply inside_cons_inv in H. destruct H as (x & xs & -> & Hx & H).
      apply inside_cons_inv in H. destruct H as (y & ys & -> & Hy & H). apply inside_nil in H. subst.
      exists x. split; [lia|]. apply in_flat_seq. exists y. split; [lia|cbn; auto].
  - apply (@proc_for F (tcoo F) (list nat) (list nat) (@tc_entries F) _ (fun p j => p ++ [j]) L nnzrow val draw
      0 M (fun i fuel st => for_ 0 N (fun j st => random_trow [i; j] fuel draw nnzrow val st) st) [] row).
    intros i Hi.
    apply (@proc_for F (tcoo F) (list nat) (list nat) (@tc_entries F) _ (fun p j => p ++ [j]) L nnzrow val draw
      0 N (fun j fuel st => random_trow [i; j] fuel draw nnzrow val st) _ (fun j => [[i; j]])).
    intros j Hj. apply trow_proc; auto; try lia.
    + apply inside_cons. split; [lia|]. apply inside_cons. split; [lia|]. apply inside_nil. auto.
    + cbn [app]. rewrite in_app_iff, !in_flat_seq. intros [(k & Hk & H)|(k & Hk & [E|[]])].
      * apply in_flat_seq in H. destruct H as (k' & Hk' & [E|[]]). injection E as -> ->. lia.
      * injection E as ->. lia.
Qed.

Lemma random_tensor4_ok draw K M N L nnzrow val :
  feqb val f0 = false -> feqb (f0 : F) f0 = true -> (forall k, draw k < L) -> 0 < nnzrow < L -> 0 < K -> 0 < M -> 0 < N ->
  fits_int [K; M; N; L] ->
  (forall fuel, match random_structure_tensor4 fuel draw K M N L nnzrow val with
     | Ok q => tens_cols [K; M; N] L nnzrow val q | NoFuel => True | _ => False end) /\
  (fair L draw -> exists f0 q, forall fuel, f0 <= fuel -> random_structure_tensor4 fuel draw K M N L nnzrow val = Ok q).
Proof.
  intros Hv H00 Hd Hn HK HM HN Hfit. unfold random_structure_tensor4. rewrite (proj2 (Nat.leb_gt _ _)) by lia. cbn [negb require_ bind].
  set (row t i := flat_map (fun j => [[t; i; j]]) (seq 0 (N - 0))).
  set (pl t := flat_map (row t) (seq 0 (M - 0))).
  apply (@random_tensor_gen draw [K; M; N] L nnzrow val
    (fun fuel st => for_ 0 K (fun t st => for_ 0 M (fun i st => for_ 0 N (fun j st => random_trow [t; i; j] fuel draw nnzrow val st) st) st) st)
    (flat_map pl (seq 0 (K - 0)))); auto.
  - destruct K; [lia|]. destruct M; [lia|]. destruct N; [lia|]. discriminate.
  - intros p. rewrite in_flat_seq. split.
    + intros (t & Ht & H). apply in_flat_seq in H. destruct H as (i & Hi & H). apply in_flat_seq in H. destruct H as (j & Hj & [<-|[]]).
      apply inside_cons. split; [lia|]. apply inside_cons. split; [lia|]. apply inside_cons. split; [lia|]. apply inside_nil. auto.
    + intros H. apply inside_cons_inv in H. destruct H as (x & xs & -> & Hx & H).
      apply inside_cons_inv in H. destruct H as (y & ys & -> & Hy & H).
      apply inside_cons_inv in H. destruct H as (z & zs & -> & Hz & H). apply inside_nil in H. subst.
      exists x. split; [lia|]. apply in_flat_seq. exists y. split; [lia|]. apply in_flat_seq. exists z. split; [lia|cbn; auto].
  - apply (@proc_for F (tcoo F) (list nat) (list nat) (@tc_entries F) _ (fun p j => p ++ [j]) L nnzrow val draw
      0 K (fun t fuel st => for_ 0 M (fun i st => for_ 0 N (fun j st => random_trow [t; i; j] fuel draw nnzrow val st) st) st) [] pl).
    intros t Ht.
    apply (@proc_for F (tcoo F) (list nat) (list nat) (@tc_entries F) _ (fun p j => p ++ [j]) L nnzrow val draw
      0 M (fun i fuel st => for_ 0 N (fun j st => random_trow [t; i; j] fuel draw nnzrow val st) st) _ (row t)).
    intros i Hi.
    apply (@proc_for F (tcoo F) (list nat) (list nat) (@tc_entries F) _ (fun p j => p ++ [j]) L nnzrow val draw
      0 N (fun j fuel st => random_trow [t; i; j] fuel draw nnzrow val st) _ (fun j => [[t; i; j]])).
    intros j Hj. apply trow_proc; auto; try lia.
    + apply inside_cons. split; [lia|]. apply inside_cons. split; [lia|]. apply inside_cons. split; [lia|]. apply inside_nil. auto.
    + cbn [app]. rewrite !in_app_iff, !in_flat_seq. intros [[(k & Hk & H)|(k & Hk & H)]|(k & Hk & [E|[]])].
      * apply in_flat_seq in H. destruct H as (k' & Hk' & H). apply in_flat_seq in H. destruct H as (k2 & Hk2 & [E|[]]).
        injection E as -> -> ->. lia.
      * apply in_flat_seq in H. destruct H as (k2 & Hk2 & [E|[]]). injection E as -> ->. lia.
      * injection E as ->. lia.
Qed.

End RandTensor.
