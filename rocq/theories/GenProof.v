(** * GenProof: the matrix generators *)
From Coq Require Import ZArith Sorting.Sorted.
From Verif Require Import Base Scalar Spec Loops DenseModel CooModel Observe CooProof CooSortProof SumFacts GenModel.
Set Implicit Arguments.

(** ** sorted concatenations *)
Lemma ssorted_app {A} (R : A -> A -> Prop) l l' :
  StronglySorted R l -> StronglySorted R l' -> (forall x y, In x l -> In y l' -> R x y) ->
  StronglySorted R (l ++ l').
Proof.
  induction 1 as [|x l HS IH HF]; intros HS' H; cbn; auto.
  constructor.
  - apply IH; auto. intros; apply H; cbn; auto.
  - apply Forall_app. split; auto. apply Forall_forall. intros y Hy. apply H; cbn; auto.
Qed.

Lemma ssorted_flat {A} (R : A -> A -> Prop) (f : nat -> list A) n lo :
  (forall k, lo <= k < lo + n -> StronglySorted R (f k)) ->
  (forall k k' x y, lo <= k -> k < k' -> k' < lo + n -> In x (f k) -> In y (f k') -> R x y) ->
  StronglySorted R (flat_map f (seq lo n)).
Proof.
  revert lo; induction n as [|n IH]; intros lo H1 H2; cbn; [constructor|].
  apply ssorted_app.
  - apply H1. lia.
  - apply IH; intros; [apply H1|apply (H2 k k')]; auto; lia.
  - intros x y Hx Hy. apply in_flat_map in Hy. destruct Hy as (k' & Hk' & Hy).
    apply in_seq in Hk'. apply (H2 lo k'); auto; lia.
Qed.

Lemma map_flat {A B} (f : A -> B) (g : nat -> list A) l : map f (flat_map g l) = flat_map (fun k => map f (g k)) l.
Proof. induction l; cbn; auto. rewrite map_app. congruence. Qed.

Lemma in_flat_seq {A} (f : nat -> list A) lo n x :
  In x (flat_map f (seq lo n)) <-> exists k, lo <= k < lo + n /\ In x (f k).
Proof.
  rewrite in_flat_map. split; intros (k & H1 & H2); exists k.
  - apply in_seq in H1. auto.
  - split; auto. apply in_seq. auto.
Qed.

Lemma int_in z : (-2147483648 <= z <= 2147483647)%Z -> int_ z = Ok z.
Proof. intros H. unfold int_, int_ok. rewrite !(proj2 (Z.leb_le _ _)) by lia. reflexivity. Qed.

Section GenProof.
Context {F : Type} {SF : Scalar F}.
Local Notation triple := (nat * nat * F)%type.

(** ** what a run of insertions adds *)
Definition good (M N : nat) (c : coo F) : Prop := coo_ok c /\ c_row c = M /\ c_col c = N.
Definition adds (M N : nat) (c : coo F) (l : list triple) (r : res (coo F)) : Prop :=
  exists c', r = Ok c' /\ good M N c' /\ coo_entries c' = coo_entries c ++ l.

Lemma good_new M N : good M N (coo_new M N).
Proof. split; [apply coo_new_ok|auto]. Qed.

Lemma adds_ret M N c : good M N c -> adds M N c [] (Ok c).
Proof. intros H. exists c. rewrite app_nil_r. auto. Qed.

Lemma adds_insert M N c i j v : good M N c -> i <= M -> j <= N -> adds M N c [(i, j, v)] (coo_insert c i j v).
Proof.
  intros (W & Hr & Hc) Hi Hj.
  destruct (@coo_insert_ok F SF c i j v W) as (c' & E & W' & Hr' & Hc' & HE); [lia|lia|].
  exists c'. repeat split; auto; try congruence; apply W'.
Qed.

Lemma adds_ins M N c i j v :
  good M N c -> (0 <= i <= Z.of_nat M)%Z -> (0 <= j <= Z.of_nat N)%Z ->
  adds M N c [(Z.to_nat i, Z.to_nat j, v)] (ins c i j v).
Proof.
  intros G Hi Hj. unfold ins. rewrite !(proj2 (Z.leb_le _ _)) by lia. cbn [assert_ bind].
  apply adds_insert; auto; lia.
Qed.

Lemma adds_bind M N c l r l' k :
  adds M N c l r -> (forall c', good M N c' -> adds M N c' l' (k c')) -> adds M N c (l ++ l') (bind r k).
Proof.
  intros (c1 & -> & G1 & E1) H. cbn [bind]. destruct (H c1 G1) as (c2 & E & G2 & E2).
  exists c2. split; auto. split; auto. rewrite E2, E1, app_assoc. auto.
Qed.

Lemma adds_for M N c lo hi body f :
  good M N c ->
  (forall i c', lo <= i < hi -> good M N c' -> adds M N c' (f i) (body i c')) ->
  adds M N c (flat_map f (seq lo (hi - lo))) (for_ lo hi body c).
Proof.
  intros G H. unfold for_. remember (hi - lo) as n eqn:En.
  assert (K : forall n lo' c, lo <= lo' -> (lo' + n <= hi \/ n = 0) -> good M N c ->
      adds M N c (flat_map f (seq lo' n)) (iter_ n lo' body c)).
  { clear - H. induction n as [|n IH]; intros lo' c H1 H2 G; cbn [iter_ seq flat_map].
    - apply adds_ret; auto.
    - apply adds_bind; [apply H; auto; lia|]. intros; apply IH; auto; lia. }
  apply K; auto; lia.
Qed.

(** from the list of entries to the matrix *)
Lemma adds_matrix M N l r (P : nat -> nat -> Prop) (A : nat -> nat -> F) :
  adds M N (coo_new M N) l r ->
  StronglySorted pos_lt (map fst l) ->
  (forall i j v, In (i, j, v) l <-> i < M /\ j < N /\ P i j /\ v = A i j) ->
  (forall i j, i < M -> j < N -> P i j \/ (~ P i j /\ A i j = f0)) ->
  exists c, r = Ok c /\ coo_ok c /\ c_row c = M /\ c_col c = N /\
    StronglySorted pos_lt (map fst (coo_entries c)) /\
    (forall i j v, In (i, j, v) (coo_entries c) <-> i < M /\ j < N /\ P i j /\ v = A i j) /\
    forall i j, i < M -> j < N -> coo_at c i j = Ok (A i j).
Proof.
  intros (c & E & (W & Hr & Hc) & HE) HS HI HZ. cbn [coo_entries coo_new c_nnz firstn app] in HE.
  exists c. split; auto. split; auto. split; auto. split; auto. rewrite HE. split; auto. split; auto.
  intros i j Hi Hj. rewrite coo_at_ok by (auto; lia). f_equal. rewrite HE.
  destruct (HZ i j Hi Hj) as [HP|[HP H0]].
  - assert (X : In (i, j, last_wins l i j) l).
    { apply last_wins_in. exists (A i j). apply HI. auto. }
    apply HI in X. apply X.
  - rewrite H0. apply last_wins_in. intros [v Hv]. apply HI in Hv. tauto.
Qed.

(** rows *)
Lemma pos_lt_dec_row i j j' : j < j' -> pos_lt (i, j) (i, j').
Proof. right. auto. Qed.

Lemma rows_sorted (f : nat -> list triple) lo n :
  (forall i, lo <= i < lo + n -> StronglySorted pos_lt (map fst (f i))) ->
  (forall i t, lo <= i < lo + n -> In t (f i) -> fst (fst t) = i) ->
  StronglySorted pos_lt (map fst (flat_map f (seq lo n))).
Proof.
  intros H1 H2. rewrite map_flat. apply ssorted_flat; auto.
  intros k k' x y Hk Hkk Hk' Hx Hy. apply in_map_iff in Hx, Hy.
  destruct Hx as (tx & <- & Hx). destruct Hy as (ty & <- & Hy).
  apply H2 in Hx; [|lia]. apply H2 in Hy; [|lia]. left. lia.
Qed.

Lemma cols_sorted (f : nat -> list triple) i lo n :
  (forall j t, In t (f j) -> fst t = (i, j)) -> (forall j, length (f j) <= 1) ->
  StronglySorted pos_lt (map fst (flat_map f (seq lo n))).
Proof.
  intros H1 H2. rewrite map_flat. apply ssorted_flat.
  - intros j _. specialize (H2 j). destruct (f j) as [|t [|? ?]]; cbn in *; [constructor| |lia].
    repeat constructor.
  - intros k k' x y Hk Hkk Hk' Hx Hy. apply in_map_iff in Hx, Hy.
    destruct Hx as (tx & <- & Hx). destruct Hy as (ty & <- & Hy).
    apply H1 in Hx, Hy. rewrite Hx, Hy. right. cbn. lia.
Qed.

(** ** band matrices: any element chooser *)
Definition band_like (M N : nat) (W : Z) (pick : nat -> nat -> option F) : res (coo F) :=
  require_ (negb (Z.of_nat N <=? W)%Z) ;;;
  for_ 0 M (fun i c =>
    start <- band_start (Z.of_nat i) W ;;
    end_ <- band_end (Z.of_nat i) (Z.of_nat N) W ;;
    for_ (Z.to_nat start) (Z.to_nat end_) (fun j c =>
      match pick i j with Some v => coo_insert c i j v | None => Ok c end) c) (coo_new M N).

Definition opt_list (i j : nat) (o : option F) : list triple :=
  match o with Some v => [(i, j, v)] | None => [] end.

Lemma band_like_ok M N W pick :
  (W < Z.of_nat N)%Z -> (Z.of_nat M + Z.abs W <= 2147483647)%Z ->
  exists c, band_like M N W pick = Ok c /\ coo_ok c /\ c_row c = M /\ c_col c = N /\
    StronglySorted pos_lt (map fst (coo_entries c)) /\
    (forall i j v, In (i, j, v) (coo_entries c) <->
       i < M /\ j < N /\ ((Z.abs (Z.of_nat i - Z.of_nat j) <= W)%Z /\ pick i j <> None) /\
       v = match pick i j with Some v => if (Z.abs (Z.of_nat i - Z.of_nat j) <=? W)%Z then v else f0 | None => f0 end) /\
    forall i j, i < M -> j < N ->
      coo_at c i j = Ok (match pick i j with Some v => if (Z.abs (Z.of_nat i - Z.of_nat j) <=? W)%Z then v else f0
                                           | None => f0 end).
Proof.
  intros HW HM.
  set (st i := if (Z.of_nat i <? W)%Z then 0%Z else (Z.of_nat i - W)%Z).
  set (en i := if (Z.of_nat N <=? Z.of_nat i + W + 1)%Z then Z.of_nat N else (Z.of_nat i + W + 1)%Z).
  set (row i := flat_map (fun j => opt_list i j (pick i j)) (seq (Z.to_nat (st i)) (Z.to_nat (en i) - Z.to_nat (st i)))).
  apply (@adds_matrix M N (flat_map row (seq 0 (M - 0)))).
  - unfold band_like. rewrite (proj2 (Z.leb_gt _ _)) by lia. cbn [negb require_ bind].
    apply adds_for; [apply good_new|]. intros i c' Hi G.
    assert (Es : band_start (Z.of_nat i) W = Ok (st i)).
    { unfold band_start, st. destruct (Z.ltb_spec (Z.of_nat i) W); auto.
      apply int_in. lia. }
    assert (Ee : band_end (Z.of_nat i) (Z.of_nat N) W = Ok (en i)).
    { unfold band_end, en. rewrite int_in by lia. cbn [bind]. rewrite int_in by lia. reflexivity. }
    rewrite Es, Ee. cbn [bind]. apply adds_for; auto.
    intros j c'' Hj G''. destruct (pick i j) as [v|]; cbn [opt_list].
    + apply adds_insert; auto; [lia|]. unfold en in Hj. destruct (Z.leb_spec (Z.of_nat N) (Z.of_nat i + W + 1)); lia.
    + apply adds_ret; auto.
  - apply rows_sorted.
    + intros i _. apply cols_sorted with (i := i).
      * intros j t. destruct (pick i j); cbn; intros H; [destruct H as [<-|[]]; auto|contradiction].
      * intros j. destruct (pick i j); cbn; lia.
    + intros i t _ Ht. unfold row in Ht. apply in_flat_seq in Ht. destruct Ht as (j & _ & Ht).
      destruct (pick i j); cbn in Ht; [destruct Ht as [<-|[]]; auto|contradiction].
  - intros i j v. rewrite in_flat_seq.
    assert (B : forall j, Z.to_nat (st i) <= j < Z.to_nat (st i) + (Z.to_nat (en i) - Z.to_nat (st i)) <->
                j < N /\ (Z.abs (Z.of_nat i - Z.of_nat j) <= W)%Z).
    { intros j'. unfold st, en. destruct (Z.ltb_spec (Z.of_nat i) W), (Z.leb_spec (Z.of_nat N) (Z.of_nat i + W + 1)); lia. }
    split.
    + intros (k & Hk & Ht). unfold row in Ht. apply in_flat_seq in Ht. destruct Ht as (j' & Hj' & Ht).
      destruct (pick k j') as [w|] eqn:E; cbn in Ht; [|contradiction]. destruct Ht as [Ht|[]].
      injection Ht as <- <- <-. apply B in Hj'. rewrite E. split; [lia|]. split; [lia|].
      split; [split; [lia|congruence]|]. rewrite (proj2 (Z.leb_le _ _)) by lia. auto.
    + intros (Hi & Hj & (HA & HP) & Hv). exists i. split; [lia|]. unfold row. apply in_flat_seq. exists j.
      split; [apply B; auto|]. destruct (pick i j) as [w|]; [|congruence].
      rewrite (proj2 (Z.leb_le _ _)) in Hv by lia. subst. cbn. auto.
  - intros i j Hi Hj. destruct (pick i j) as [w|].
    + destruct (Z.leb_spec (Z.abs (Z.of_nat i - Z.of_nat j)) W); [left; split; auto; congruence|].
      right. split; auto. lia.
    + right. split; auto. tauto.
Qed.

Lemma band_like_throw M N W pick : (Z.of_nat N <= W)%Z -> band_like M N W pick = Throw.
Proof. intros H. unfold band_like. rewrite (proj2 (Z.leb_le _ _)) by auto. reflexivity. Qed.

Definition band_pick (d v : F) (i j : nat) : option F :=
  if (i =? j) && negb (feqb d f0) then Some d else if negb (feqb v f0) then Some v else None.
Definition asym_pick (d u l : F) (i j : nat) : option F :=
  if (i =? j) && negb (feqb d f0) then Some d
  else if (i <? j) && negb (feqb u f0) then Some u
  else if (j <? i) && negb (feqb l f0) then Some l else None.

Lemma band_is_like M N W d v : band_matrix M N W d v = band_like M N W (band_pick d v).
Proof.
  unfold band_matrix, band_like. destruct (negb (Z.of_nat N <=? W)%Z); cbn [require_ bind]; auto.
  apply for_ext. intros i s _. destruct (band_start (Z.of_nat i) W); cbn [bind]; auto.
  destruct (band_end (Z.of_nat i) (Z.of_nat N) W); cbn [bind]; auto.
  apply for_ext. intros j s' _. unfold band_pick.
  destruct ((i =? j) && negb (feqb d f0)); auto. destruct (negb (feqb v f0)); auto.
Qed.
Lemma asym_is_like M N W d u l : asym_band_matrix M N W d u l = band_like M N W (asym_pick d u l).
Proof.
  unfold asym_band_matrix, band_like. destruct (negb (Z.of_nat N <=? W)%Z); cbn [require_ bind]; auto.
  apply for_ext. intros i s _. destruct (band_start (Z.of_nat i) W); cbn [bind]; auto.
  destruct (band_end (Z.of_nat i) (Z.of_nat N) W); cbn [bind]; auto.
  apply for_ext. intros j s' _. unfold asym_pick.
  destruct ((i =? j) && negb (feqb d f0)); auto. destruct ((i <? j) && negb (feqb u f0)); auto.
  destruct ((j <? i) && negb (feqb l f0)); auto.
Qed.

(** ** eye, frank *)
Lemma eye_ok M :
  exists c, eye M = Ok c /\ coo_ok c /\ c_row c = M /\ c_col c = M /\
    StronglySorted pos_lt (map fst (coo_entries c)) /\
    (forall i j v, In (i, j, v) (coo_entries c) <-> i < M /\ j < M /\ i = j /\ v = if i =? j then f1 else f0) /\
    forall i j, i < M -> j < M -> coo_at c i j = Ok (if i =? j then f1 else f0).
Proof.
  apply (@adds_matrix M M (flat_map (fun i => [(i, i, f1)]) (seq 0 (M - 0)))).
  - apply adds_for; [apply good_new|]. intros; apply adds_insert; auto; lia.
  - apply rows_sorted; [repeat constructor|]. intros i t _ [<-|[]]. auto.
  - intros i j v. rewrite in_flat_seq. split.
    + intros (k & Hk & [E|[]]). injection E as <- <- <-. rewrite Nat.eqb_refl. repeat split; lia.
    + intros (Hi & Hj & -> & ->). exists j. rewrite Nat.eqb_refl. split; [lia|]. cbn. auto.
  - intros i j Hi Hj. destruct (Nat.eqb_spec i j); auto.
Qed.

Context {FI : FromInt F}.

Lemma frank_ok M :
  exists c, frank_matrix M = Ok c /\ coo_ok c /\ c_row c = M /\ c_col c = M /\
    StronglySorted pos_lt (map fst (coo_entries c)) /\
    (forall i j v, In (i, j, v) (coo_entries c) <-> i < M /\ j < M /\ True /\
        v = of_int (Z.of_nat M - Z.of_nat (Nat.max i j))) /\
    forall i j, i < M -> j < M -> coo_at c i j = Ok (of_int (Z.of_nat M - Z.of_nat (Nat.max i j))).
Proof.
  set (el i j := [(i, j, of_int (Z.of_nat M - Z.of_nat (Nat.max i j)))] : list triple).
  apply (@adds_matrix M M (flat_map (fun i => flat_map (el i) (seq 0 (M - 0))) (seq 0 (M - 0)))).
  - apply adds_for; [apply good_new|]. intros; apply adds_for; auto. intros; apply adds_insert; auto; lia.
  - apply rows_sorted.
    + intros i _. apply cols_sorted with (i := i); [|auto]. intros j t [<-|[]]. auto.
    + intros i t _ Ht. apply in_flat_seq in Ht. destruct Ht as (j & _ & [<-|[]]). auto.
  - intros i j v. rewrite in_flat_seq. split.
    + intros (k & Hk & Ht). apply in_flat_seq in Ht. destruct Ht as (j' & Hj' & [E|[]]).
      injection E as <- <- <-. repeat split; lia.
    + intros (Hi & Hj & _ & ->). exists i. split; [lia|]. apply in_flat_seq. exists j. split; [lia|]. cbn. auto.
  - auto.
Qed.

(** ** stencils *)
Lemma ins_nat M N c zi zj i j v :
  good M N c -> zi = Z.of_nat i -> zj = Z.of_nat j -> i <= M -> j <= N -> adds M N c [(i, j, v)] (ins c zi zj v).
Proof.
  intros G -> -> Hi Hj. rewrite <- (Nat2Z.id i) at 1. rewrite <- (Nat2Z.id j) at 1. apply adds_ins; auto; lia.
Qed.
Lemma ins_bind M N c zi zj i j v l k :
  good M N c -> zi = Z.of_nat i -> zj = Z.of_nat j -> i <= M -> j <= N ->
  (forall c', good M N c' -> adds M N c' l (k c')) -> adds M N c ((i, j, v) :: l) (bind (ins c zi zj v) k).
Proof. intros. change ((i, j, v) :: l) with ([(i, j, v)] ++ l). apply adds_bind; auto. apply ins_nat; auto. Qed.
Lemma ins_if_bind M N c (t : bool) zi zj i j v l k :
  good M N c -> (t = true -> zi = Z.of_nat i /\ zj = Z.of_nat j /\ i <= M /\ j <= N) ->
  (forall c', good M N c' -> adds M N c' l (k c')) ->
  adds M N c ((if t then [(i, j, v)] else []) ++ l) (bind (if t then ins c zi zj v else Ok c) k).
Proof.
  intros G H K. apply adds_bind; auto. destruct t; [|apply adds_ret; auto].
  destruct (H eq_refl) as (E1 & E2 & E3 & E4). apply ins_nat; auto.
Qed.
Lemma ins_abort (c : coo F) i j v :
  c_own c = true -> (i < 0 \/ j < 0 \/ Z.of_nat (c_row c) < i \/ Z.of_nat (c_col c) < j)%Z -> ins c i j v = Abort.
Proof.
  intros Ho H. unfold ins. destruct (Z.leb_spec 0 i); cbn [assert_ bind]; auto.
  destruct (Z.leb_spec 0 j); cbn [assert_ bind]; auto. unfold coo_insert. rewrite Ho.
  destruct (Nat.leb_spec (Z.to_nat i) (c_row c)); cbn [assert_ bind]; auto.
  destruct (Nat.leb_spec (Z.to_nat j) (c_col c)); cbn [assert_ bind]; auto. lia.
Qed.

Ltac row_sorted := repeat (constructor; [|repeat (constructor; [right; cbn; split; lia|]); constructor]); constructor.
Ltac in_list := cbn [In app]; rewrite ?in_app_iff; cbn [In].

(** *** tridiagonal *)
Definition tri (a b : F) (i j : nat) : F :=
  if i =? j then a else if (i =? j + 1) || (j =? i + 1) then b else f0.

Lemma tri_a a b i : tri a b i i = a.
Proof. unfold tri. now rewrite Nat.eqb_refl. Qed.
Lemma tri_b a b i j : i = j + 1 \/ j = i + 1 -> tri a b i j = b.
Proof.
  intros H. unfold tri. destruct (Nat.eqb_spec i j); [lia|].
  destruct (Nat.eqb_spec i (j + 1)), (Nat.eqb_spec j (i + 1)); auto; lia.
Qed.

Lemma tri_ok M a b : 2 <= M ->
  exists c, tridiagonal_toeplitz_matrix M a b = Ok c /\ coo_ok c /\ c_row c = M /\ c_col c = M /\
    StronglySorted pos_lt (map fst (coo_entries c)) /\
    (forall i j v, In (i, j, v) (coo_entries c) <-> i < M /\ j < M /\ (i <= j + 1 /\ j <= i + 1) /\ v = tri a b i j) /\
    forall i j, i < M -> j < M -> coo_at c i j = Ok (tri a b i j).
Proof.
  intros HM. set (mid i := [(i, i - 1, b); (i, i, a); (i, i + 1, b)] : list triple).
  apply (@adds_matrix M M ((0, 0, a) :: (0, 1, b) :: flat_map mid (seq 1 (M - 1 - 1)) ++
                           [(M - 1, M - 2, b); (M - 1, M - 1, a)])).
  - unfold tridiagonal_toeplitz_matrix.
    apply ins_bind; [apply good_new|lia|lia|lia|lia|]. intros c1 G1.
    apply ins_bind; auto; [lia|lia|]. intros c2 G2.
    apply adds_bind.
    + apply adds_for; auto. intros i c' Hi G.
      apply ins_bind; auto; try lia. intros. apply ins_bind; auto; try lia. intros. apply ins_nat; auto; lia.
    + intros c3 G3. apply ins_bind; auto; try lia. intros. apply ins_nat; auto; lia.
  - change ((0, 0, a) :: (0, 1, b) :: flat_map mid (seq 1 (M - 1 - 1)) ++ [(M - 1, M - 2, b); (M - 1, M - 1, a)])
      with ([(0, 0, a); (0, 1, b)] ++ flat_map mid (seq 1 (M - 1 - 1)) ++ [(M - 1, M - 2, b); (M - 1, M - 1, a)]).
    rewrite !map_app.
    assert (Hmid : forall x, In x (map fst (flat_map mid (seq 1 (M - 1 - 1)))) -> 1 <= fst x < M - 1).
    { intros x Hx. apply in_map_iff in Hx. destruct Hx as (t & <- & Ht). apply in_flat_seq in Ht.
      destruct Ht as (k & Hk & Ht). cbn in Ht. destruct Ht as [<-|[<-|[<-|[]]]]; cbn; lia. }
    apply ssorted_app; [row_sorted| |].
    + apply ssorted_app.
      * apply rows_sorted; [intros; cbn [map mid fst]; row_sorted|].
        intros i t _ Ht. cbn in Ht. destruct Ht as [<-|[<-|[<-|[]]]]; auto.
      * row_sorted.
      * intros x y Hx Hy. apply Hmid in Hx. left. cbn in Hy. destruct Hy as [<-|[<-|[]]]; cbn; lia.
    + intros x y Hx Hy. left. apply in_app_iff in Hy. cbn in Hx.
      assert (fst x = 0) by (destruct Hx as [<-|[<-|[]]]; auto).
      destruct Hy as [Hy|Hy]; [apply Hmid in Hy; lia|]. cbn in Hy. destruct Hy as [<-|[<-|[]]]; cbn; lia.
  - intros i j v. cbn [In]. rewrite in_app_iff, in_flat_seq. cbn [In]. split.
    + intros [E|[E|[(k & Hk & Ht)|[E|[E|[]]]]]]; [..|cbn in Ht; destruct Ht as [E|[E|[E|[]]]]| |];
        injection E as <- <- <-; (split; [lia|]); (split; [lia|]); (split; [lia|]);
        rewrite ?tri_a; auto; rewrite tri_b by lia; auto.
    + intros (Hi & Hj & HP & ->).
      assert (Cases : i = 0 \/ i = M - 1 \/ 1 <= i < M - 1) by lia.
      assert (CJ : j = i \/ i = j + 1 \/ j = i + 1) by lia.
      assert (V : (j = i /\ tri a b i j = a) \/ (j <> i /\ tri a b i j = b)).
      { destruct CJ as [->|CJ]; [left; split; auto; apply tri_a|right; split; [lia|apply tri_b; auto]]. }
      destruct Cases as [->|[->|Hmid]].
      * destruct V as [[-> ->]|[? ->]]; auto. assert (j = 1) by lia. subst. auto.
      * right. right. right. destruct V as [[-> ->]|[? ->]]; auto. left. repeat f_equal. lia.
      * right. right. left. exists i. split; [lia|]. cbn.
        destruct V as [[-> ->]|[? ->]]; auto.
        destruct CJ as [?|[?|?]]; [lia| |]; subst; auto. left. f_equal. f_equal. lia.
  - intros i j Hi Hj. destruct (le_dec i (j + 1)), (le_dec j (i + 1)); try (left; lia);
      (right; split; [lia|]); unfold tri;
      destruct (Nat.eqb_spec i j); try lia; destruct (Nat.eqb_spec i (j + 1)); try lia;
      destruct (Nat.eqb_spec j (i + 1)); try lia; auto.
Qed.

Lemma tri_small M a b : M < 2 -> tridiagonal_toeplitz_matrix M a b = Abort.
Proof.
  intros H. destruct M as [|[|M]]; [| |lia]; vm_compute; reflexivity.
Qed.

(** *** Toeplitz plus Hankel *)
Definition tph (M : nat) (a0 a1 a2 : F) (i j : nat) : F :=
  if i =? j then (if (i =? 0) || (i =? M - 1) then fsub a0 a2 else a0)
  else if (i =? j + 1) || (j =? i + 1) then a1
  else if (i =? j + 2) || (j =? i + 2) then a2 else f0.

Lemma tph_cases M a0 a1 a2 i j : i < M -> j < M ->
  (i = j /\ (i = 0 \/ i = M - 1) /\ tph M a0 a1 a2 i j = fsub a0 a2) \/
  (i = j /\ 0 < i < M - 1 /\ tph M a0 a1 a2 i j = a0) \/
  ((i = j + 1 \/ j = i + 1) /\ tph M a0 a1 a2 i j = a1) \/
  ((i = j + 2 \/ j = i + 2) /\ tph M a0 a1 a2 i j = a2) \/
  ((i > j + 2 \/ j > i + 2) /\ tph M a0 a1 a2 i j = f0).
Proof.
  intros Hi Hj. unfold tph.
  destruct (Nat.eqb_spec i j).
  - destruct (Nat.eqb_spec i 0), (Nat.eqb_spec i (M - 1)); cbn [orb]; try (left; intuition lia).
    right; left. intuition lia.
  - destruct (Nat.eqb_spec i (j + 1)), (Nat.eqb_spec j (i + 1)); cbn [orb]; try (right; right; left; intuition lia).
    destruct (Nat.eqb_spec i (j + 2)), (Nat.eqb_spec j (i + 2)); cbn [orb]; try (right; right; right; left; intuition lia).
    right; right; right; right. intuition lia.
Qed.

Lemma tph_ok M a0 a1 a2 : 4 <= M ->
  exists c, toeplitz_plus_hankel_matrix M a0 a1 a2 = Ok c /\ coo_ok c /\ c_row c = M /\ c_col c = M /\
    StronglySorted pos_lt (map fst (coo_entries c)) /\
    (forall i j v, In (i, j, v) (coo_entries c) <-> i < M /\ j < M /\ (i <= j + 2 /\ j <= i + 2) /\ v = tph M a0 a1 a2 i j) /\
    forall i j, i < M -> j < M -> coo_at c i j = Ok (tph M a0 a1 a2 i j).
Proof.
  intros HM.
  set (top := [(0, 0, fsub a0 a2); (0, 1, a1); (0, 2, a2); (1, 0, a1); (1, 1, a0); (1, 2, a1); (1, 3, a2)] : list triple).
  set (mid i := [(i, i - 2, a2); (i, i - 1, a1); (i, i, a0); (i, i + 1, a1); (i, i + 2, a2)] : list triple).
  set (bot := [(M - 2, M - 4, a2); (M - 2, M - 3, a1); (M - 2, M - 2, a0); (M - 2, M - 1, a1);
               (M - 1, M - 3, a2); (M - 1, M - 2, a1); (M - 1, M - 1, fsub a0 a2)] : list triple).
  assert (Htop : forall t, In t top -> fst (fst t) <= 1).
  { intros t Ht. cbn in Ht. repeat (destruct Ht as [<-|Ht]; [cbn; lia|]). destruct Ht. }
  assert (Hbot : forall t, In t bot -> M - 2 <= fst (fst t) < M).
  { intros t Ht. unfold bot in Ht. cbn [In] in Ht. repeat (destruct Ht as [<-|Ht]; [cbn [fst]; lia|]). destruct Ht. }
  assert (Hmid : forall t, In t (flat_map mid (seq 2 (M - 2 - 2))) -> 2 <= fst (fst t) < M - 2).
  { intros t Ht. apply in_flat_seq in Ht. destruct Ht as (k & Hk & Ht). cbn in Ht.
    repeat (destruct Ht as [<-|Ht]; [cbn; lia|]). destruct Ht. }
  apply (@adds_matrix M M (top ++ flat_map mid (seq 2 (M - 2 - 2)) ++ bot)).
  - unfold toeplitz_plus_hankel_matrix, top. cbn [app].
    apply ins_bind; [apply good_new|lia|lia|lia|lia|]. intros.
    do 6 (apply ins_bind; auto; try lia; intro; intro).
    apply adds_bind.
    + apply adds_for; auto. intros i cc Hi G. unfold mid.
      do 4 (apply ins_bind; auto; try lia; intro; intro). apply ins_nat; auto; lia.
    + intros. unfold bot. do 6 (apply ins_bind; auto; try lia; intro; intro). apply ins_nat; auto; lia.
  - rewrite !map_app.
    assert (Sorted7 : StronglySorted pos_lt (map fst top)).
    { cbn. repeat (constructor; [|repeat (constructor; [solve [left; cbn; lia|right; cbn; lia]|]); constructor]). constructor. }
    assert (SortedB : StronglySorted pos_lt (map fst bot)).
    { unfold bot. cbn [map fst]. repeat (constructor; [|repeat (constructor; [solve [left; cbn [fst]; lia|right; cbn [fst snd]; lia]|]); constructor]). constructor. }
    apply ssorted_app; [exact Sorted7| |].
    + apply ssorted_app; [|exact SortedB|].
      * apply rows_sorted.
        -- intros i Hi. unfold mid. cbn [map fst].
           repeat (constructor; [|repeat (constructor; [right; cbn [fst snd]; split; lia|]); constructor]). constructor.
        -- intros i t _ Ht. cbn in Ht. repeat (destruct Ht as [<-|Ht]; [reflexivity|]). destruct Ht.
      * intros x y Hx Hy. apply in_map_iff in Hx, Hy. destruct Hx as (tx & <- & Hx), Hy as (ty & <- & Hy).
        apply Hmid in Hx. apply Hbot in Hy. left. lia.
    + intros x y Hx Hy. rewrite <- map_app in Hy. apply in_map_iff in Hx, Hy.
      destruct Hx as (tx & <- & Hx), Hy as (ty & <- & Hy). apply Htop in Hx. left.
      apply in_app_iff in Hy. destruct Hy as [Hy|Hy]; [apply Hmid in Hy|apply Hbot in Hy]; lia.
  - intros i j v. rewrite !in_app_iff, in_flat_seq. split.
    + intros H.
      assert (R : i < M /\ j < M /\ (i <= j + 2 /\ j <= i + 2) /\
         (((i = j /\ (i = 0 \/ i = M - 1)) /\ v = fsub a0 a2) \/ ((i = j /\ 0 < i < M - 1) /\ v = a0) \/
          ((i = j + 1 \/ j = i + 1) /\ v = a1) \/ ((i = j + 2 \/ j = i + 2) /\ v = a2))).
      { destruct H as [H|[(k & Hk & H)|H]].
        - unfold top in H. cbn [In] in H.
          repeat (destruct H as [H|H]; [injection H as <- <- <-; (split; [lia|]); (split; [lia|]); (split; [lia|]);
            solve [left; split; [lia|auto]|right; left; split; [lia|auto]|right; right; left; split; [lia|auto]|
                   right; right; right; split; [lia|auto]]|]). destruct H.
        - unfold mid in H. cbn [In] in H.
          repeat (destruct H as [H|H]; [injection H as <- <- <-; (split; [lia|]); (split; [lia|]); (split; [lia|]);
            solve [left; split; [lia|auto]|right; left; split; [lia|auto]|right; right; left; split; [lia|auto]|
                   right; right; right; split; [lia|auto]]|]). destruct H.
        - unfold bot in H. cbn [In] in H.
          repeat (destruct H as [H|H]; [injection H as <- <- <-; (split; [lia|]); (split; [lia|]); (split; [lia|]);
            solve [left; split; [lia|auto]|right; left; split; [lia|auto]|right; right; left; split; [lia|auto]|
                   right; right; right; split; [lia|auto]]|]). destruct H. }
      destruct R as (Hi & Hj & HP & HV). split; auto. split; auto. split; auto.
      destruct (@tph_cases M a0 a1 a2 i j Hi Hj) as [(? & ? & ->)|[(? & ? & ->)|[(? & ->)|[(? & ->)|(? & ->)]]]];
        destruct HV as [[? ->]|[[? ->]|[[? ->]|[? ->]]]]; auto; lia.
    + intros (Hi & Hj & HP & ->).
      assert (C : i <= 1 \/ 2 <= i < M - 2 \/ M - 2 <= i) by lia.
      destruct C as [C|[C|C]].
      * left. assert (i = 0 \/ i = 1) as [-> | ->] by lia;
          [assert (j = 0 \/ j = 1 \/ j = 2) as [-> |[-> | ->]] by lia|
           assert (j = 0 \/ j = 1 \/ j = 2 \/ j = 3) as [-> |[-> |[-> | ->]]] by lia];
        match goal with |- context [tph M a0 a1 a2 ?i ?j] =>
          destruct (@tph_cases M a0 a1 a2 i j Hi Hj) as [(? & ? & ->)|[(? & ? & ->)|[(? & ->)|[(? & ->)|(? & ->)]]]] end;
        try lia; cbn; tauto.
      * right; left. exists i. split; [lia|]. unfold mid. cbn [In].
        assert (j = i - 2 \/ j = i - 1 \/ j = i \/ j = i + 1 \/ j = i + 2) as E by lia.
        destruct (@tph_cases M a0 a1 a2 i j Hi Hj) as [(? & ? & ->)|[(? & ? & ->)|[(? & ->)|[(? & ->)|(? & ->)]]]]; try lia;
        destruct E as [-> |[-> |[-> |[-> | ->]]]]; try lia; tauto.
      * right; right. unfold bot. cbn [In].
        assert (i = M - 2 \/ i = M - 1) as E by lia.
        assert (j = M - 4 \/ j = M - 3 \/ j = M - 2 \/ j = M - 1) as E' by lia.
        destruct (@tph_cases M a0 a1 a2 i j Hi Hj) as [(? & ? & ->)|[(? & ? & ->)|[(? & ->)|[(? & ->)|(? & ->)]]]]; try lia;
        destruct E as [-> | ->]; destruct E' as [-> |[-> |[-> | ->]]]; try lia; tauto.
  - intros i j Hi Hj.
    destruct (@tph_cases M a0 a1 a2 i j Hi Hj) as [(? & ? & ->)|[(? & ? & ->)|[(? & ->)|[(? & ->)|(? & ->)]]]]; try (left; lia).
    right. split; auto. lia.
Qed.

Lemma tph_small M a0 a1 a2 : M < 4 -> toeplitz_plus_hankel_matrix M a0 a1 a2 = Abort.
Proof.
  intros H. destruct M as [|[|[|[|M]]]]; [| | | |lia]; vm_compute; reflexivity.
Qed.

(** *** 2D Laplacian: grid points (x, y), x < m, y < n, numbered y * m + x *)
Definition grid_dist (m ii jj : nat) : nat :=
  (ii mod m - jj mod m) + (jj mod m - ii mod m) + (ii / m - jj / m) + (jj / m - ii / m).
Definition lap2 (m ii jj : nat) : F :=
  match grid_dist m ii jj with 0 => of_int 4 | 1 => of_int (-1) | _ => f0 end.

Lemma divmod m y x n : x < m -> n = y * m + x -> n / m = y /\ n mod m = x.
Proof.
  intros Hx ->. split.
  - rewrite Nat.div_add_l by lia. rewrite Nat.div_small by auto. lia.
  - rewrite Nat.add_comm, Nat.mod_add by lia. apply Nat.mod_small. auto.
Qed.

Lemma lap2_ok m n :
  (Z.of_nat m * Z.of_nat n <= 2147483647)%Z ->
  exists c, laplacian_matrix_2D_5p m n = Ok c /\ coo_ok c /\ c_row c = m * n /\ c_col c = m * n /\
    StronglySorted pos_lt (map fst (coo_entries c)) /\
    (forall i j v, In (i, j, v) (coo_entries c) <-> i < m * n /\ j < m * n /\ grid_dist m i j <= 1 /\ v = lap2 m i j) /\
    forall i j, i < m * n -> j < m * n -> coo_at c i j = Ok (lap2 m i j).
Proof.
  intros HB. set (M := m * n).
  set (e := of_int (-1) : F).
  set (row ii := (if (0 <? Z.of_nat (ii / m))%Z then [(ii, ii - m, e)] else []) ++
                 (if (0 <? Z.of_nat ii - Z.of_nat (ii / m) * Z.of_nat m)%Z then [(ii, ii - 1, e)] else []) ++
                 (ii, ii, of_int 4) ::
                 (if (Z.of_nat ii - Z.of_nat (ii / m) * Z.of_nat m <? Z.of_nat m - 1)%Z then [(ii, ii + 1, e)] else []) ++
                 (if (Z.of_nat (ii / m) <? Z.of_nat n - 1)%Z then [(ii, ii + m, e)] else []) : list triple).
  assert (EM : Z.to_nat (Z.of_nat m * Z.of_nat n) = M) by (unfold M; lia).
  (* membership in a row, in grid coordinates *)
  assert (HR : forall x y j v, x < m -> y < n ->
      In (y * m + x, j, v) (row (y * m + x)) <->
      ((0 < y /\ j = (y - 1) * m + x /\ v = e) \/ (0 < x /\ j = y * m + (x - 1) /\ v = e) \/
       (j = y * m + x /\ v = of_int 4) \/ (x + 1 < m /\ j = y * m + (x + 1) /\ v = e) \/
       (y + 1 < n /\ j = (y + 1) * m + x /\ v = e))).
  { intros x y j v Hx Hy. unfold row.
    destruct (@divmod m y x (y * m + x) Hx eq_refl) as [-> _].
    assert (E1 : (y - 1) * m + x = y * m + x - m \/ y = 0) by (destruct y; [right; auto|left; cbn; rewrite Nat.sub_0_r; lia]).
    assert (E2 : (y + 1) * m + x = y * m + x + m) by lia.
    rewrite !in_app_iff. cbn [In]. rewrite !in_app_iff. rewrite E2.
    destruct (Z.ltb_spec 0 (Z.of_nat y)), (Z.ltb_spec 0 (Z.of_nat (y * m + x) - Z.of_nat y * Z.of_nat m)),
       (Z.ltb_spec (Z.of_nat (y * m + x) - Z.of_nat y * Z.of_nat m) (Z.of_nat m - 1)), (Z.ltb_spec (Z.of_nat y) (Z.of_nat n - 1));
      cbn [In];
      (split; [intros [HH|[HH|[HH|[HH|HH]]]]|intros [(? & -> & ->)|[(? & -> & ->)|[(-> & ->)|[(? & -> & ->)|(? & -> & ->)]]]]]);
      try contradiction; try lia;
      try (destruct HH as [HH|[]]); try (injection HH as <- <-); try lia;
      try (left; split; [lia|]; split; [lia|reflexivity]);
      try (right; left; split; [lia|]; split; [lia|reflexivity]);
      try (right; right; left; split; [lia|]; reflexivity);
      try (right; right; right; left; split; [lia|]; split; [lia|reflexivity]);
      try (right; right; right; right; split; [lia|]; split; [lia|reflexivity]);
      try (left; left; do 2 f_equal; lia);
      try (right; left; left; do 2 f_equal; lia);
      try (right; right; left; do 2 f_equal; lia);
      try (right; right; right; left; left; do 2 f_equal; lia);
      try (right; right; right; right; left; do 2 f_equal; lia). }
  apply (@adds_matrix M M (flat_map row (seq 0 (M - 0)))).
  - unfold laplacian_matrix_2D_5p. rewrite int_in by lia. cbn [bind]. rewrite EM.
    apply adds_for; [apply good_new|]. intros ii c' Hii G.
    assert (Hm : 0 < m) by (unfold M in Hii; destruct m; lia).
    assert (Hd := Nat.div_mod ii m). assert (Hmod := Nat.mod_upper_bound ii m).
    assert (Hdn : ii / m < n) by (apply Nat.div_lt_upper_bound; unfold M in Hii; lia).
    assert (HdM : m * (ii / m) + m <= M) by (unfold M; nia).
    unfold row.
    apply ins_if_bind; auto.
    { intros T. apply Z.ltb_lt in T. assert (m <= ii) by nia. lia. }
    intros c1 G1. apply ins_if_bind; auto.
    { intros T. apply Z.ltb_lt in T. lia. }
    intros c2 G2. apply ins_bind; auto; try lia. intros c3 G3. apply ins_if_bind; auto.
    { intros T. apply Z.ltb_lt in T. lia. }
    intros c4 G4. destruct (Z.ltb_spec (Z.of_nat (ii / m)) (Z.of_nat n - 1)); [|apply adds_ret; auto].
    apply ins_nat; auto; try lia. unfold M. nia.
  - apply rows_sorted.
    + intros ii Hii. unfold row.
      assert (Hm : 0 < m) by (unfold M in Hii; destruct m; lia).
      assert (Hd := Nat.div_mod ii m). assert (Hmod := Nat.mod_upper_bound ii m).
      destruct (Z.ltb_spec 0 (Z.of_nat (ii / m))), (Z.ltb_spec 0 (Z.of_nat ii - Z.of_nat (ii / m) * Z.of_nat m)),
       (Z.ltb_spec (Z.of_nat ii - Z.of_nat (ii / m) * Z.of_nat m) (Z.of_nat m - 1)), (Z.ltb_spec (Z.of_nat (ii / m)) (Z.of_nat n - 1));
       cbn [app map fst];
       try assert (m <= ii) by nia;
       repeat (constructor; [|repeat (constructor; [right; cbn [fst snd]; split; lia|]); constructor]); constructor.
    + intros ii t _ Ht. unfold row in Ht. rewrite !in_app_iff in Ht. cbn [In] in Ht. rewrite !in_app_iff in Ht.
      destruct (0 <? Z.of_nat (ii / m))%Z, (0 <? Z.of_nat ii - Z.of_nat (ii / m) * Z.of_nat m)%Z,
       (Z.of_nat ii - Z.of_nat (ii / m) * Z.of_nat m <? Z.of_nat m - 1)%Z, (Z.of_nat (ii / m) <? Z.of_nat n - 1)%Z;
       cbn [In] in Ht; repeat (destruct Ht as [Ht|Ht]; try contradiction; try (subst t; reflexivity)).
  - assert (Own : forall ii t, In t (row ii) -> fst (fst t) = ii).
    { intros ii t Ht. unfold row in Ht. rewrite !in_app_iff in Ht. cbn [In] in Ht. rewrite !in_app_iff in Ht.
      destruct (0 <? Z.of_nat (ii / m))%Z, (0 <? Z.of_nat ii - Z.of_nat (ii / m) * Z.of_nat m)%Z,
       (Z.of_nat ii - Z.of_nat (ii / m) * Z.of_nat m <? Z.of_nat m - 1)%Z, (Z.of_nat (ii / m) <? Z.of_nat n - 1)%Z;
       cbn [In] in Ht; repeat (destruct Ht as [Ht|Ht]; try contradiction; try (subst t; reflexivity)). }
    intros i j v. rewrite in_flat_seq.
    assert (XY : forall i, i < M -> exists x y, x < m /\ y < n /\ i = y * m + x).
    { intros i' Hi. assert (Hm : 0 < m) by (unfold M in Hi; destruct m; lia).
      exists (i' mod m), (i' / m). split; [apply Nat.mod_upper_bound; lia|]. split.
      - apply Nat.div_lt_upper_bound; unfold M in Hi; lia.
      - rewrite Nat.mul_comm. apply Nat.div_mod. lia. }
    assert (LT : forall x y, x < m -> y < n -> y * m + x < M) by (intros; unfold M; nia).
    split.
    + intros (k & Hk & Ht). assert (E := Own _ _ Ht). cbn in E. subst k.
      destruct (XY i) as (x & y & Hx & Hy & ->); [lia|]. apply HR in Ht; auto.
      assert (D : exists x' y', x' < m /\ y' < n /\ j = y' * m + x' /\
         ((x - x' + (x' - x) + (y - y') + (y' - y) = 1 /\ v = e) \/ (x' = x /\ y' = y /\ v = of_int 4))).
      { destruct Ht as [(? & -> & ->)|[(? & -> & ->)|[(-> & ->)|[(? & -> & ->)|(? & -> & ->)]]]].
        - exists x, (y - 1). repeat split; try lia. left; split; [lia|auto].
        - exists (x - 1), y. repeat split; try lia. left; split; [lia|auto].
        - exists x, y. repeat split; try lia. right; auto.
        - exists (x + 1), y. repeat split; try lia. left; split; [lia|auto].
        - exists x, (y + 1). repeat split; try lia. left; split; [lia|auto]. }
      destruct D as (x' & y' & Hx' & Hy' & -> & D). split; [auto|]. split; [auto|].
      assert (GD : grid_dist m (y * m + x) (y' * m + x') = x - x' + (x' - x) + (y - y') + (y' - y)).
      { unfold grid_dist. destruct (@divmod m y x _ Hx eq_refl) as [-> ->].
        destruct (@divmod m y' x' _ Hx' eq_refl) as [-> ->]. reflexivity. }
      unfold lap2. rewrite GD. destruct D as [[-> ->]|(-> & -> & ->)]; [auto|].
      rewrite !Nat.sub_diag. auto.
    + intros (Hi & Hj & HP & ->). exists i. split; [lia|].
      destruct (XY i Hi) as (x & y & Hx & Hy & ->). destruct (XY j Hj) as (x' & y' & Hx' & Hy' & ->).
      apply HR; auto.
      assert (GD : grid_dist m (y * m + x) (y' * m + x') = x - x' + (x' - x) + (y - y') + (y' - y)).
      { unfold grid_dist. destruct (@divmod m y x _ Hx eq_refl) as [-> ->].
        destruct (@divmod m y' x' _ Hx' eq_refl) as [-> ->]. reflexivity. }
      unfold lap2. rewrite GD in *.
      assert (C : (y' = y - 1 /\ 0 < y /\ x' = x) \/ (x' = x - 1 /\ 0 < x /\ y' = y) \/ (x' = x /\ y' = y) \/
                  (x' = x + 1 /\ y' = y) \/ (y' = y + 1 /\ x' = x)) by lia.
      destruct C as [(E1 & E2 & E3)|[(E1 & E2 & E3)|[(E1 & E2)|[(E1 & E2)|(E1 & E2)]]]].
      * replace (x - x' + (x' - x) + (y - y') + (y' - y)) with 1 by lia. left. subst. auto.
      * replace (x - x' + (x' - x) + (y - y') + (y' - y)) with 1 by lia. right; left. subst. auto.
      * replace (x - x' + (x' - x) + (y - y') + (y' - y)) with 0 by lia. right; right; left. subst. auto.
      * replace (x - x' + (x' - x) + (y - y') + (y' - y)) with 1 by lia. right; right; right; left. subst. split; [lia|auto].
      * replace (x - x' + (x' - x) + (y - y') + (y' - y)) with 1 by lia. right; right; right; right. subst. split; [lia|auto].
  - intros i j Hi Hj. unfold lap2. destruct (grid_dist m i j) as [|[|d]]; [left; lia|left; lia|right; split; [lia|auto]].
Qed.

End GenProof.
