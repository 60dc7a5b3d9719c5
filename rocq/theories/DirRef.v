(** * DirRef: a LAPACK that obeys its documentation exists.

    The properties of the dense solvers assume what LAPACK documents.  Here are Gaussian elimination with row interchanges
    and triangular solves, and the proof that they meet those assumptions for every order and every matrix over every
    field, so the assumptions can be met (and are not contradictory).  Nothing in /repo is modelled here. *)
From Coq Require Import ZArith Ring.
From Verif Require Import Base Scalar Spec SumFacts SolverSpec DirModel DirSpec DirLin.
Set Implicit Arguments.

Section DirRef.
Context {F : Type} {SF : Scalar F}.
Local Open Scope F_scope.

(** write the m x n matrix f into the column-major array a *)
Definition store (a : list F) (lda m n : nat) (f : nat -> nat -> F) : list F :=
  map (fun k => if ((k mod lda <? m) && (k / lda <? n))%nat then f (k mod lda) (k / lda)%nat else fn a k) (seq 0 (length a)).
Fixpoint first_nonzero (f : nat -> F) (k len : nat) : option nat :=
  match len with O => None | S l => if feqb (f k) 0 then first_nonzero f (S k) l else Some k end.
Record lus := Lus { u_M : nat -> nat -> F; u_p : list nat; u_info : Z }.
Definition eliminate (k : nat) (M : nat -> nat -> F) (i j : nat) : F :=
  if (k <? i)%nat then if (j =? k)%nat then M i k / M k k else if (k <? j)%nat then M i j - M i k / M k k * M k j else M i j else M i j.
Definition lu_step (m k : nat) (s : lus) : lus :=
  match first_nonzero (fun i => u_M s i k) k (m - k) with
  | None => Lus (u_M s) (u_p s ++ [k + 1]%nat) (if (u_info s =? 0)%Z then Z.of_nat (k + 1) else u_info s)
  | Some r => Lus (eliminate k (fun i j => u_M s (interchange k r i) j)) (u_p s ++ [r + 1]%nat) (u_info s)
  end.
Fixpoint lu_steps (m k : nat) (M : nat -> nat -> F) : lus :=
  match k with O => Lus M [] 0%Z | S k' => lu_step m k' (lu_steps m k' M) end.
Definition ref_getrf (m n : nat) (a : list F) (lda : nat) (p : list nat) : list F * list nat * Z :=
  if (lda <? Nat.max 1 m)%nat then (a, p, (-4)%Z) else
  let s := lu_steps m (Nat.min m n) (colmaj a lda) in
  (store a lda m n (u_M s), u_p s ++ skipn (Nat.min m n) p, u_info s).

(** sum_l w_l T(l, j) = r_j, T upper triangular *)
Fixpoint tsolve (n : nat) (T : nat -> nat -> F) (r : nat -> F) : list F :=
  match n with O => [] | S k => let w := tsolve k T r in w ++ [(r k - sum_n k (fun l => fn w l * T l k)) / T k k] end.
Definition ref_getrs (tr : bool) (n : nat) (a : list F) (lda : nat) (p : list nat) (b : list F) : list F * Z :=
  if (lda <? Nat.max 1 n)%nat then (b, (-5)%Z) else
  let w := tsolve n (upper a lda) (fn b) in
  let z := tsolve n (fun l j => unit_lower a lda (n - 1 - l) (n - 1 - j)) (fun j => fn w (n - 1 - j)) in
  (map (fun i => if (i <? n)%nat then fn z (n - 1 - landing p n i) else fn b i) (seq 0 (length b)), 0%Z).
Definition full (n : nat) (a : list F) (lda : nat) : list F := map (fun k => from_upper a lda (k mod n) (k / n)) (seq 0 (n * n)).
Definition ref_sytrf (up : bool) (n : nat) (a : list F) (lda : nat) (p : list nat) : list F * list nat * Z :=
  if (lda <? Nat.max 1 n)%nat then (a, p, (-4)%Z) else (a, p, snd (ref_getrf n n (full n a lda) n (repeat 0%nat n))).
Definition ref_sytrs (up : bool) (n : nat) (a : list F) (lda : nat) (p : list nat) (b : list F) : list F * Z :=
  if (lda <? Nat.max 1 n)%nat then (b, (-5)%Z) else
  let '(f, q, _) := ref_getrf n n (full n a lda) n (repeat 0%nat n) in ref_getrs true n f n q b.
(** the two eigenvalue routines report that they did not converge *)
Definition ref_lapack : lapack F :=
  Lapack ref_getrf ref_getrs ref_sytrf ref_sytrs (fun _ _ a _ w => (a, w, 1%Z)) (fun _ _ _ a _ b _ w => (a, b, w, 1%Z)).

Hypothesis Hex : exact SF.
Hypothesis Hf : field_arith (F:=F).
Hypothesis H10 : 1 <> (0 : F).
Let Hrt : ring_theory (f0 (Scalar:=SF)) f1 fadd fmul fsub fopp eq := Hex.
Add Ring Fdr : Hrt.

Lemma fn_map_seq (f : nat -> F) n k : (k < n)%nat -> fn (map f (seq 0 n)) k = f k.
Proof. intros H. unfold fn. now rewrite nth_map_seq. Qed.
Lemma pos_div i j lda : (i < lda)%nat -> ((i + j * lda) / lda = j /\ (i + j * lda) mod lda = i)%nat.
Proof. intros H. split; [rewrite Nat.div_add, Nat.div_small by lia; lia|rewrite Nat.mod_add, Nat.mod_small by lia; lia]. Qed.
Lemma store_get a n f i j : (n * n <= length a)%nat -> (i < n)%nat -> (j < n)%nat -> colmaj (store a n n n f) n i j = f i j.
Proof.
  intros Hl Hi Hj. unfold colmaj, store. rewrite fn_map_seq by nia. destruct (@pos_div i j n Hi) as (E1 & E2). rewrite E1, E2.
  now rewrite !(proj2 (Nat.ltb_lt _ _)) by auto.
Qed.
Lemma fnz_some (f : nat -> F) len : forall k r, first_nonzero f k len = Some r -> (k <= r < k + len)%nat /\ f r <> 0.
Proof. induction len as [|l IH]; intros k r H; cbn in H; [discriminate|]. destruct (feqb (f k) 0) eqn:E.
  - apply IH in H. split; [lia|tauto].
  - injection H as <-. split; [lia|]. intro C. apply (proj1 (proj2 Hf)) in C. congruence. Qed.
Lemma fnz_none (f : nat -> F) len : forall k, first_nonzero f k len = None -> forall i, (k <= i < k + len)%nat -> f i = 0.
Proof. induction len as [|l IH]; intros k H i Hi; cbn in H; [lia|]. destruct (feqb (f k) 0) eqn:E; [|discriminate].
  destruct (Nat.eq_dec i k) as [ -> |]; [now apply (proj1 (proj2 Hf))|]. apply (IH (S k)); auto; lia. Qed.

(** invariant of the elimination *)
Definition partL (M : nat -> nat -> F) i l := if (l <? i)%nat then M i l else if (i =? l)%nat then 1 else 0.
Definition partU (M : nat -> nat -> F) l j := if (l <=? j)%nat then M l j else 0.
Definition work k (M : nat -> nat -> F) i j := sum_n k (fun l => partL M i l * partU M l j) + (if ((k <=? i) && (k <=? j))%nat then M i j else 0).
Ltac cases := repeat match goal with |- context [(?a <? ?b)%nat] => destruct (Nat.ltb_spec a b) | |- context [(?a <=? ?b)%nat] => destruct (Nat.leb_spec a b)
  | |- context [(?a =? ?b)%nat] => destruct (Nat.eqb_spec a b) end; cbn [andb]; try lia.
Lemma work_swap k r M i j : (k <= r)%nat -> work k M (interchange k r i) j = work k (fun i j => M (interchange k r i) j) i j.
Proof.
  intros Hr. assert (G : forall l, (l < k)%nat -> interchange k r l = l). { intros l Hl. unfold interchange. cases; reflexivity. }
  assert (Ge : (k <= i)%nat -> (k <= interchange k r i)%nat). { intros H. unfold interchange. cases. }
  unfold work. f_equal.
  - apply sum_ext. intros l Hl. f_equal.
    + unfold partL. destruct (le_lt_dec k i) as [Hi|Hi].
      * specialize (Ge Hi). cases. reflexivity.
      * rewrite (G i Hi). cases; reflexivity.
    + unfold partU. now rewrite G.
  - destruct (le_lt_dec k i) as [Hi|Hi]; [specialize (Ge Hi)|rewrite (G i Hi)]; cases; reflexivity.
Qed.
Lemma work_elim k M i j : M k k <> 0 -> work k M i j = work (S k) (eliminate k M) i j.
Proof.
  intros Hd. unfold work. cbn [sum_n].
  rewrite (@sum_ext F SF k (fun l => partL (eliminate k M) i l * partU (eliminate k M) l j) (fun l => partL M i l * partU M l j)).
  - assert (E : (if ((k <=? i) && (k <=? j))%nat then M i j else 0) =
      partL (eliminate k M) i k * partU (eliminate k M) k j + (if ((S k <=? i) && (S k <=? j))%nat then eliminate k M i j else 0)).
    { unfold partL, partU, eliminate. rewrite Nat.ltb_irrefl, Nat.eqb_refl. cases; subst; try ring; try lia.
      all: try (rewrite (dl_div Hf) by auto); try ring. }
    rewrite E. ring.
  - intros l Hl. f_equal; unfold partL, partU, eliminate; cases; reflexivity.
Qed.
Lemma work_skip n k M i j : (k < n)%nat -> (i < n)%nat -> (forall i, (k <= i < n)%nat -> M i k = 0) -> work k M i j = work (S k) M i j.
Proof.
  intros Hk Hi H0. unfold work. cbn [sum_n].
  assert (E : (if ((k <=? i) && (k <=? j))%nat then M i j else 0) =
      partL M i k * partU M k j + (if ((S k <=? i) && (S k <=? j))%nat then M i j else 0)).
  { unfold partL, partU. cases; subst; try ring; try lia. all: rewrite ?(H0 i) by lia; try ring.
    all: replace j with k by lia; rewrite H0 by lia; ring. }
  rewrite E. ring.
Qed.
Lemma landing_app p q k i : (k <= length p)%nat -> landing (p ++ q) k i = landing p k i.
Proof. induction k as [|k IH]; intros H; cbn [landing]; auto. rewrite IH by lia. now rewrite app_nth1 by lia. Qed.
Record lu_inv (n : nat) (A : nat -> nat -> F) (k : nat) (s : lus) : Prop := {
  li_len : length (u_p s) = k;
  li_piv : forall l, (l < k)%nat -> (l + 1 <= nth l (u_p s) 0 <= n)%nat;
  li_work : forall i j, (i < n)%nat -> (j < n)%nat -> A i j = work k (u_M s) (landing (u_p s) k i) j;
  li_rng : forall i, (i < n)%nat -> (landing (u_p s) k i < n)%nat;
  li_pos : (0 <= u_info s)%Z;
  li_info : u_info s = 0%Z <-> forall l, (l < k)%nat -> u_M s l l <> 0 }.
Lemma lu_inv_all n A k : (k <= n)%nat -> lu_inv n A k (lu_steps n k A).
Proof.
  induction k as [|k IH]; intros Hk.
  { split; cbn; auto; try lia.
    - intros i j Hi Hj. unfold work. cbn. ring.
    - split; auto. intros; lia. }
  specialize (IH ltac:(lia)). cbn [lu_steps]. set (s := lu_steps n k A) in *. destruct IH as [I1 I2 I3 I4 I5 I6]. unfold lu_step.
  assert (Hland : forall r i, (k <= r < n)%nat -> landing (u_p s ++ [(r + 1)%nat]) (S k) i = interchange k r (landing (u_p s) k i)).
  { intros r i Hr. cbn [landing]. rewrite landing_app by lia. rewrite app_nth2, I1, Nat.sub_diag by lia. cbn [nth]. f_equal. lia. }
  assert (Hpiv : forall r l, (k <= r < n)%nat -> (l < S k)%nat -> (l + 1 <= nth l (u_p s ++ [(r + 1)%nat]) 0 <= n)%nat).
  { intros r l Hr Hl. destruct (Nat.eq_dec l k) as [ -> |]; [rewrite app_nth2, I1, Nat.sub_diag by lia; cbn; lia|].
    rewrite app_nth1 by lia. apply I2. lia. }
  destruct (first_nonzero (fun i => u_M s i k) k (n - k)) as [r|] eqn:E.
  - apply fnz_some in E. destruct E as (Hr & Hd). split; cbn [u_M u_p u_info].
    + rewrite app_length. cbn. lia.
    + intros l Hl. apply Hpiv; auto; lia.
    + intros i j Hi Hj. rewrite Hland by lia. rewrite I3 by auto.
      rewrite <- (@work_elim k (fun i j => u_M s (interchange k r i) j)).
      * rewrite <- work_swap by lia. now rewrite inter_inv.
      * unfold interchange. now rewrite Nat.eqb_refl.
    + intros i Hi. rewrite Hland by lia. apply inter_lt; auto; lia.
    + auto.
    + rewrite I6. split; intros H l Hl.
      * unfold eliminate. rewrite (proj2 (Nat.ltb_ge _ _)) by lia. unfold interchange.
        destruct (Nat.eqb_spec l k) as [ -> |]; auto. destruct (Nat.eqb_spec l r); [lia|]. apply H. lia.
      * specialize (H l ltac:(lia)). unfold eliminate in H. rewrite (proj2 (Nat.ltb_ge _ _)) in H by lia. unfold interchange in H.
        destruct (Nat.eqb_spec l k); [lia|]. destruct (Nat.eqb_spec l r); [lia|]. auto.
  - pose proof (@fnz_none _ _ _ E) as H0. cbn beta in H0. split; cbn [u_M u_p u_info].
    + rewrite app_length. cbn. lia.
    + intros l Hl. apply Hpiv; auto; lia.
    + intros i j Hi Hj. rewrite Hland by lia. rewrite I3 by auto.
      replace (interchange k k (landing (u_p s) k i)) with (landing (u_p s) k i) by (unfold interchange; destruct (Nat.eqb_spec (landing (u_p s) k i) k); auto).
      apply (@work_skip n); auto. intros q Hq. apply H0. lia.
    + intros i Hi. rewrite Hland by lia. apply inter_lt; auto; lia.
    + destruct (u_info s =? 0)%Z; lia.
    + split; intros H.
      * destruct (Z.eqb_spec (u_info s) 0); lia.
      * exfalso. apply (H k); [lia|]. apply H0. lia.
Qed.
Lemma ref_getrf_doc : getrf_doc ref_lapack.
Proof.
  intros n a p0 a' p info Hn Hl Hp E. cbn [l_getrf ref_lapack] in E. unfold ref_getrf in E.
  rewrite (proj2 (Nat.ltb_ge _ _)) in E by lia. rewrite Nat.min_id in E. injection E as <- <- <-.
  rewrite (skipn_all2 p0) by lia. rewrite app_nil_r. destruct (@lu_inv_all n (colmaj a n) n ltac:(lia)) as [I1 I2 I3 I4 I5 I6].
  set (s := lu_steps n n (colmaj a n)) in *. split; [unfold store; now rewrite map_length, seq_length|].
  split; [split; auto|]. split; auto. split.
  - intros i j Hi Hj. rewrite I3 by auto. specialize (I4 i Hi). unfold plu, work.
    rewrite (proj2 (Nat.leb_gt n j)) by auto. rewrite andb_false_r.
    transitivity (sum_n n (fun l => partL (u_M s) (landing (u_p s) n i) l * partU (u_M s) l j)); [|ring].
    apply sum_ext. intros l Hl'. f_equal.
    + unfold unit_lower, partL. now rewrite store_get by auto.
    + unfold upper, partU. now rewrite store_get by auto.
  - rewrite I6. unfold upper. split; intros H i Hi; specialize (H i Hi); rewrite Nat.leb_refl, store_get in * by auto; auto.
Qed.

Lemma tsolve_len n T r : length (tsolve n T r) = n.
Proof. induction n; cbn; auto. rewrite app_length. cbn. lia. Qed.
Lemma tsolve_ok n (T : nat -> nat -> F) r : (forall l j, (j < l)%nat -> (l < n)%nat -> T l j = 0) -> (forall i, (i < n)%nat -> T i i <> 0) ->
  forall j, (j < n)%nat -> sum_n n (fun l => fn (tsolve n T r) l * T l j) = r j.
Proof.
  intros HT Hd. induction n as [|n IH]; intros j Hj; [lia|]. cbn [tsolve sum_n].
  assert (Gl : forall l, (l < n)%nat -> fn (tsolve n T r ++ [(r n - sum_n n (fun l => fn (tsolve n T r) l * T l n)) / T n n]) l = fn (tsolve n T r) l).
  { intros l Hl. unfold fn. rewrite app_nth1; auto. now rewrite tsolve_len. }
  assert (Gn : fn (tsolve n T r ++ [(r n - sum_n n (fun l => fn (tsolve n T r) l * T l n)) / T n n]) n = (r n - sum_n n (fun l => fn (tsolve n T r) l * T l n)) / T n n).
  { unfold fn. rewrite app_nth2, tsolve_len, Nat.sub_diag by (rewrite tsolve_len; lia). reflexivity. }
  rewrite Gn. rewrite (@sum_ext F SF n _ (fun l => fn (tsolve n T r) l * T l j)) by (intros l Hl; now rewrite Gl).
  destruct (Nat.eq_dec j n) as [ -> |Hne].
  - rewrite (dl_div Hf) by (apply Hd; lia). ring.
  - rewrite IH; try lia; [|intros; apply HT; lia|intros; apply Hd; lia]. rewrite (HT n j) by lia. ring.
Qed.
Lemma ref_solve n a p b : (1 <= n)%nat -> pivots_ok n p -> (n <= length b)%nat -> (forall i, (i < n)%nat -> upper a n i i <> 0) ->
  solves n (fun i j => plu n a n p j i) (fn (fst (ref_getrs true n a n p b))) (fn b).
Proof.
  intros Hn Hp Hb Hd j Hj. unfold ref_getrs. rewrite (proj2 (Nat.ltb_ge _ _)) by lia. cbn [fst].
  set (w := tsolve n (upper a n) (fn b)). set (T := fun l j : nat => unit_lower a n (n - 1 - l) (n - 1 - j)).
  set (z := tsolve n T (fun j => fn w (n - 1 - j))).
  assert (Hw : forall j, (j < n)%nat -> sum_n n (fun l => fn w l * upper a n l j) = fn b j).
  { intros i Hi. apply tsolve_ok; auto. intros l k Hl _. apply (@U_low F SF a n); auto. }
  assert (Hz : forall j, (j < n)%nat -> sum_n n (fun l => fn z l * T l j) = fn w (n - 1 - j)).
  { intros i Hi. apply (@tsolve_ok n T (fun j => fn w (n - 1 - j))); auto.
    - intros l k Hl Hn'. apply (@Lo_up F SF a n). lia.
    - intros k Hk. unfold T. now rewrite (@Lo_dg F SF a n). }
  unfold mv. rewrite (@sum_ext F SF n _ (fun i => plu n a n p i j * fn z (n - 1 - landing p n i))).
  - rewrite (@plu_sum F SF Hex n a n p Hp (fun i => fn z (n - 1 - landing p n i))). rewrite <- (Hw j Hj). apply sum_ext. intros l Hl. f_equal.
    transitivity (fn w (n - 1 - (n - 1 - l))); [|f_equal; lia]. rewrite <- Hz by lia.
    rewrite <- (sum_rev Hex n). apply sum_ext. intros i Hi. rewrite landing_unland. unfold T.
    f_equal; [f_equal; lia|f_equal; lia].
  - intros i Hi. f_equal. rewrite fn_map_seq by lia. now rewrite (proj2 (Nat.ltb_lt _ _) Hi).
Qed.
Lemma ref_getrs_doc : getrs_doc ref_lapack.
Proof.
  intros n a p b x info Hn Hl Hp Hb E. cbn [l_getrs ref_lapack] in E. pose proof (f_equal fst E) as Ex. cbn [fst] in Ex.
  pose proof (@ref_solve n a p b Hn Hp Hb) as G. rewrite Ex in G.
  unfold ref_getrs in E. rewrite (proj2 (Nat.ltb_ge _ _)) in E by lia. injection E as <- <-.
  split; auto. split; [now rewrite map_length, seq_length|]. split; [|exact G].
  intros i Hi. destruct (le_lt_dec (length b) i) as [Hc|Hc].
  - unfold fn. rewrite !nth_overflow; auto. rewrite map_length, seq_length; lia.
  - rewrite fn_map_seq by lia. now rewrite (proj2 (Nat.ltb_ge _ _) Hi).
Qed.
Lemma full_len n a lda : length (full n a lda) = (n * n)%nat.
Proof. unfold full. now rewrite map_length, seq_length. Qed.
Lemma full_get n a lda i j : (i < n)%nat -> (j < n)%nat -> colmaj (full n a lda) n i j = from_upper a lda i j.
Proof. intros Hi Hj. unfold colmaj, full. rewrite fn_map_seq by nia. destruct (@pos_div i j n Hi) as (-> & ->). reflexivity. Qed.
Lemma upper_sym (a : list F) lda i j : from_upper a lda i j = from_upper a lda j i.
Proof. unfold from_upper. now rewrite Nat.max_comm, Nat.min_comm. Qed.
Lemma ref_sytrf_doc : sytrf_doc ref_lapack.
Proof.
  intros n a p0 a' p info Hn Hl Hp E. cbn [l_sytrf ref_lapack] in E. unfold ref_sytrf in E.
  rewrite (proj2 (Nat.ltb_ge _ _)) in E by lia. injection E as <- <- Ei.
  destruct (ref_getrf n n (full n a n) n (repeat 0%nat n)) as ((f, q), i0) eqn:E0. cbn [snd] in Ei. subst i0.
  destruct (@ref_getrf_doc n (full n a n) (repeat 0%nat n) f q info Hn ltac:(rewrite full_len; lia) (repeat_length _ _) E0) as (R1 & R2 & R3 & R4 & R5).
  assert (E : forall y i, (i < n)%nat -> mv n (from_upper a n) y i = sum_n n (fun j => plu n f n q j i * y j)).
  { intros y i Hi. unfold mv. apply sum_ext. intros j Hj. rewrite R4, full_get by auto. now rewrite upper_sym. }
  split; auto. split; auto. split; auto. split; auto. split; auto. split.
  - intros Hi0. destruct (@last_zero F SF Hf n (fun i => upper f n i i)) as (k & Hk & Hz & _).
    + assert (G : (forall i, (i < n)%nat -> upper f n i i <> 0) \/ exists i, (i < n)%nat /\ upper f n i i = 0).
      { generalize (upper f n). intros d. clear - Hf. induction n as [|k IH]; [left; intros; lia|]. destruct IH as [H|(i & Hi & H)].
        - destruct (dl_dec Hf (d k k) 0) as [D|D]; [right; exists k; split; auto; lia|left]. intros i Hi. destruct (Nat.eq_dec i k); subst; auto. apply H; lia.
        - right. exists i. split; auto; lia. }
      destruct G as [G|G]; auto. apply R5 in G. lia.
    + destruct (@plu_null F SF Hex Hf n f n q R2 (ex_intro _ k (conj Hk Hz)) H10) as (y & Hy & Hs). exists y. split; auto.
      intros i Hi. rewrite E by auto. now apply Hs.
  - intros Hi0 b x info2 Hb Ex. cbn [l_sytrs ref_lapack] in Ex. unfold ref_sytrs in Ex. rewrite (proj2 (Nat.ltb_ge _ _)) in Ex by lia.
    rewrite E0 in Ex. pose proof (@ref_solve n f q b Hn R2 Hb (proj1 R5 Hi0)) as G. rewrite Ex in G. cbn [fst] in G.
    intros i Hi. rewrite E by auto. exact (G i Hi).
Qed.
Lemma ref_sytrs_doc : sytrs_doc ref_lapack.
Proof.
  intros n a p b x info Hn Hl Hp Hb E. cbn [l_sytrs ref_lapack] in E. unfold ref_sytrs in E.
  rewrite (proj2 (Nat.ltb_ge _ _)) in E by lia.
  destruct (ref_getrf n n (full n a n) n (repeat 0%nat n)) as ((f, q), i0) eqn:E0.
  destruct (@ref_getrf_doc n (full n a n) (repeat 0%nat n) f q i0 Hn ltac:(rewrite full_len; lia) (repeat_length _ _) E0) as (R1 & R2 & _).
  destruct (@ref_getrs_doc n f q b x info Hn ltac:(rewrite R1, full_len; lia) R2 Hb E) as (S1 & S2 & S3 & _). auto.
Qed.
Lemma ref_getrf_illegal : getrf_illegal ref_lapack.
Proof. intros m n a lda p a' p' info H E. cbn [l_getrf ref_lapack] in E. unfold ref_getrf in E. rewrite (proj2 (Nat.ltb_lt _ _)) in E by lia.
  injection E as <- <- <-. split; auto. reflexivity. Qed.
Lemma ref_getrs_illegal : getrs_illegal ref_lapack.
Proof. intros tr n a lda p b x info H E. cbn [l_getrs ref_lapack] in E. unfold ref_getrs in E. rewrite (proj2 (Nat.ltb_lt _ _)) in E by lia.
  injection E as <- <-. split; auto. reflexivity. Qed.
End DirRef.
