(** * ReduceProof *)
From Coq Require Import Ring ZArith Floats.SpecFloat.
From Verif Require Import Base Scalar Spec SumFacts Mem MemSpec ParProof VecModel VecSpec ReduceModel ReduceSpec.
Set Implicit Arguments.

Section General.
Context {F : Type} {SF : Scalar F}.

(** threads cannot fail if no term can *)
Lemma thread_acc_ok (k : reduction) (m : mem F) (f : nat -> F) :
  (forall i, i < r_n k -> r_term k m i = Ok (f i)) ->
  forall its acc, (forall i, In i its -> i < r_n k) ->
    thread_acc k m its acc = Ok (fold_left (fun a i => r_step k a (f i)) its acc).
Proof.
  intros H. induction its as [|i its IH]; intros acc Hi; cbn [thread_acc fold_left]; auto.
  rewrite H by (apply Hi; now left). cbn [bind]. apply IH. intros j Hj. apply Hi. now right.
Qed.

Lemma dist_in N d its i : distribution N d -> In its d -> In i its -> i < N.
Proof.
  intros Hd Hi Hj. assert (In i (concat d)) by (apply in_concat; eauto).
  apply (Permutation_in _ Hd) in H. apply in_seq in H. lia.
Qed.

Definition accs (k : reduction) (f : nat -> F) (d : list (list nat)) : list F :=
  map (fun its => fold_left (fun a i => r_step k a (f i)) its (r_ident k)) d.

Lemma red_val_iff (k : reduction) (m : mem F) (f : nat -> F) o v :
  (forall i, i < r_n k -> r_term k m i = Ok (f i)) -> r_orig k m = Ok o ->
  (red_val k m v <-> r_assert k = true /\
     exists d c, distribution (r_n k) d /\ combine (r_comb k) (o :: accs k f d) c /\ v = r_post k c).
Proof.
  intros H Ho. unfold red_val. split; intros (Ha & G); split; auto.
  - destruct G as (o' & d & ps & c & Ho' & Hd & Hp & Hc & ->).
    rewrite Ho in Ho'. inversion Ho'; subst o'. exists d, c. split; auto. split; auto.
    replace (accs k f d) with ps; auto. clear Hc.
    assert (Hin : forall its, In its d -> forall i, In i its -> i < r_n k) by (intros; eapply dist_in; eauto).
    clear Hd. induction Hp as [|its p d ps E Hp IH]; cbn [accs map]; auto. unfold accs in *. cbn [map].
    f_equal.
    + rewrite (thread_acc_ok k m f H) in E by (apply Hin; now left). now inversion E.
    + apply IH. intros; eapply Hin; eauto. now right.
  - destruct G as (d & c & Hd & Hc & ->). exists o, d, (accs k f d), c. repeat split; auto.
    assert (Hin : forall its, In its d -> forall i, In i its -> i < r_n k) by (intros; eapply dist_in; eauto).
    clear Hd Hc. induction d as [|its d IH]; cbn; constructor.
    + apply (thread_acc_ok k m f H). apply Hin. now left.
    + apply IH. intros; eapply Hin; eauto. now right.
Qed.

Lemma no_fault (k : reduction) (m : mem F) (f : nat -> F) o :
  (forall i, i < r_n k -> r_term k m i = Ok (f i)) -> r_orig k m = Ok o -> ~ red_fault k m.
Proof.
  intros H Ho [G|(d & Hd & G)]. { apply G. eauto. }
  apply Exists_exists in G. destruct G as (its & Hi & G). apply G.
  eexists. apply (thread_acc_ok k m f H). intros i Hj. eapply dist_in; eauto.
Qed.

Lemma dist_one N : distribution N [seq 0 N].
Proof. unfold distribution. cbn. rewrite app_nil_r. reflexivity. Qed.

Lemma combine_two op (a b : F) : combine op [a; b] (op a b).
Proof. apply comb_op with (l1 := [a]) (l2 := [b]); try constructor. reflexivity. Qed.

Lemma el_ld (m : mem F) (x : arg) i : arg_ok m x -> i < a_len x -> ld m (padd (a_ptr x) i) = Ok (el m x i).
Proof. intros H Hi. apply ld_ok. now apply H. Qed.
End General.

Section Exact.
Context {F : Type} {SF : Scalar F}.
Hypothesis Hex : exact SF.
Let Hrt : ring_theory f0 f1 fadd fmul fsub fopp (@eq F) := Hex.
Add Ring RedRing : Hrt.
Local Open Scope F_scope.

Definition total (l : list F) : F := fold_right fadd 0 l.
Lemma total_app l1 l2 : total (l1 ++ l2) = total l1 + total l2.
Proof. induction l1; cbn [app]; unfold total in *; cbn [fold_right]; [ring|]. rewrite IHl1. ring. Qed.
Lemma total_perm l1 l2 : Permutation l1 l2 -> total l1 = total l2.
Proof. unfold total. induction 1; cbn; auto; try congruence. ring. Qed.
Lemma combine_total l v : combine fadd l v -> v = total l.
Proof.
  induction 1; [cbn; ring|]. rewrite (total_perm H1), total_app. congruence.
Qed.
Lemma acc_total (f : nat -> F) its a : fold_left (fun a i => a + f i) its a = a + total (map f its).
Proof. revert a. induction its as [|i its IH]; intros a; cbn; [ring|]. rewrite IH. unfold total. ring. Qed.
Lemma total_concat (f : nat -> F) d :
  total (map (fun its => fold_left (fun a i => a + f i) its 0) d) = total (map f (concat d)).
Proof.
  induction d as [|its d IH]; cbn; auto. rewrite map_app, total_app, <- IH, acc_total. unfold total. ring.
Qed.
Lemma total_seq (f : nat -> F) n : total (map f (seq 0 n)) = sum_n n f.
Proof.
  induction n; auto. rewrite seq_S, map_app, total_app, IHn. cbn. ring.
Qed.

Lemma additive_returns chk n term post (m : mem F) f :
  chk = true -> (forall i, (i < n)%nat -> term m i = Ok (f i)) ->
  returns (additive chk n term post) m (post (sum_n n f)).
Proof.
  intros -> H.
  assert (V : forall v, red_val (additive true n term post) m v <->
    r_assert (additive true n term post) = true /\
    exists d c, distribution n d /\ combine fadd (0 :: accs (additive true n term post) f d) c /\ v = post c).
  { intros v. exact (red_val_iff (additive true n term post) m f v H eq_refl). }
  assert (U : forall d c, distribution n d -> combine fadd (0 :: accs (additive true n term post) f d) c -> c = sum_n n f).
  { intros d c Hd Hc. apply combine_total in Hc. subst c. unfold accs. cbn [r_step r_ident additive].
    cbn [total fold_right]. change (fold_right fadd 0) with total. rewrite total_concat.
    unfold distribution in Hd. rewrite (total_perm (Permutation_map f Hd)), total_seq. ring. }
  split; [|split].
  - apply V. split; auto. exists [seq 0 n]. eexists. split; [apply dist_one|]. split; [apply combine_two|].
    f_equal. symmetry. apply (U [seq 0 n]); [apply dist_one|]. apply combine_two.
  - intros v Hv. apply V in Hv. destruct Hv as (_ & d & c & Hd & Hc & ->). f_equal. eapply U; eauto.
  - exact (@no_fault F (additive true n term post) m f 0 H eq_refl).
Qed.
End Exact.

(** ** max / min *)
Section Extremum.
Context {F : Type} {SF : Scalar F}.
Variable lt : F -> F -> bool.       (* "lt a b": b is better than a *)
Variable P : F -> Prop.
Hypothesis Hirr : forall a, P a -> lt a a = false.
Hypothesis Htr : forall a b c, P a -> P b -> P c -> lt a b = true -> lt b c = true -> lt a c = true.
Hypothesis Hnt : forall a b c, P a -> P b -> P c -> lt a c = true -> lt a b = true \/ lt b c = true.
Definition pick (a b : F) : F := if lt a b then b else a.

Definition top (l : list F) (v : F) : Prop := In v l /\ forall x, In x l -> lt v x = false.
Lemma pick_top l1 l2 a b : (forall x, In x (l1 ++ l2) -> P x) -> top l1 a -> top l2 b -> top (l1 ++ l2) (pick a b).
Proof.
  intros HP (Ia & Ta) (Ib & Tb).
  assert (Pa : P a) by (apply HP, in_or_app; auto). assert (Pb : P b) by (apply HP, in_or_app; auto).
  unfold pick. destruct (lt a b) eqn:E; split; try (apply in_or_app; auto).
  - intros x Hx. pose proof (HP x Hx) as Px. apply in_app_or in Hx. destruct Hx as [Hx|Hx]; auto.
    destruct (lt b x) eqn:E2; auto. pose proof (Htr Pa Pb Px E E2). specialize (Ta x Hx). congruence.
  - intros x Hx. pose proof (HP x Hx) as Px. apply in_app_or in Hx. destruct Hx as [Hx|Hx]; auto.
    destruct (lt a x) eqn:E2; auto. destruct (Hnt Pa Pb Px E2) as [G|G]; [congruence|].
    specialize (Tb x Hx). congruence.
Qed.
Lemma top_perm l1 l2 v : Permutation l1 l2 -> top l1 v -> top l2 v.
Proof.
  intros Hp (I & T). split. { now apply (Permutation_in _ Hp). }
  intros x Hx. apply T. apply (Permutation_in _ (Permutation_sym Hp)); auto.
Qed.
Lemma combine_top l v : (forall x, In x l -> P x) -> combine pick l v -> top l v.
Proof.
  intros HP H. induction H.
  - split; [now left|]. intros x [ <- |[]]. apply Hirr. apply HP. now left.
  - assert (HP' : forall x, In x (l1 ++ l2) -> P x).
    { intros x Hx. apply HP. now apply (Permutation_in _ (Permutation_sym H1)). }
    apply (top_perm (Permutation_sym H1)). apply pick_top; auto.
    + apply IHcombine1. intros; apply HP', in_or_app; auto.
    + apply IHcombine2. intros; apply HP', in_or_app; auto.
Qed.
Lemma fold_top (f : nat -> F) its a : (forall x, In x (a :: map f its) -> P x) ->
  top (a :: map f its) (fold_left (fun a i => pick a (f i)) its a).
Proof.
  revert a. induction its as [|i its IH]; intros a HP; cbn [fold_left map].
  - split; [now left|]. intros x [ <- |[]]. apply Hirr. apply HP. now left.
  - assert (Pa : P a) by (apply HP; now left). assert (Pi : P (f i)) by (apply HP; right; now left).
    assert (Pp : P (pick a (f i))) by (unfold pick; destruct (lt a (f i)); auto).
    destruct (IH (pick a (f i))) as (I & T).
    { intros x [ <- |Hx]; auto. apply HP. right. now right. }
    set (v := fold_left _ its _) in *.
    assert (Pv : P v).
    { destruct I as [ <- |I]; auto. apply HP. right. now right. }
    split.
    + destruct I as [I|I]; [|right; now right]. rewrite <- I. unfold pick. destruct (lt a (f i)); [right; left|left]; auto.
    + assert (T0 : lt v (pick a (f i)) = false) by (apply T; now left).
      intros x [ <- |[ <- |Hx]].
      * destruct (lt v a) eqn:E; auto. unfold pick in T0. destruct (lt a (f i)) eqn:E2; [|congruence].
        rewrite (Htr Pv Pa Pi E E2) in T0. congruence.
      * destruct (lt v (f i)) eqn:E; auto. unfold pick in T0. destruct (lt a (f i)) eqn:E2; [congruence|].
        destruct (Hnt Pv Pa Pi E); congruence.
      * apply T. now right.
Qed.

(** original value = element 0, all private copies start at [low] *)
Variable low : F.
Hypothesis Plow : P low.
Lemma extremum_top (f : nat -> F) n d c : 0 < n ->
  (forall i, i < n -> P (f i)) -> (forall i, i < n -> f i = low \/ lt low (f i) = true) ->
  distribution n d ->
  combine pick (f 0 :: map (fun its => fold_left (fun a i => pick a (f i)) its low) d) c ->
  (exists i, i < n /\ f i = c) /\ forall i, i < n -> lt c (f i) = false.
Proof.
  intros Hn HP Hlow Hd Hc.
  set (g := fun its => fold_left (fun a i => pick a (f i)) its low) in *.
  assert (Hg : forall its, In its d -> top (low :: map f its) (g its)).
  { intros its Hi. apply fold_top. intros x [ <- |Hx]; auto. apply in_map_iff in Hx. destruct Hx as (i & <- & Hx).
    apply HP. eapply dist_in; eauto. }
  assert (HPg : forall x, In x (f 0 :: map g d) -> P x).
  { intros x [ <- |Hx]; [now apply HP|]. apply in_map_iff in Hx. destruct Hx as (its & <- & Hi).
    destruct (Hg its Hi) as (I & _). destruct I as [ <- |I]; auto. apply in_map_iff in I. destruct I as (i & <- & Hx).
    apply HP. eapply dist_in; eauto. }
  destruct (combine_top HPg Hc) as (I & T). assert (Pc : P c) by (apply HPg; auto).
  assert (B : forall i, i < n -> lt c (f i) = false).
  { intros i Hi. assert (J : In i (concat d)).
    { apply (Permutation_in _ (Permutation_sym Hd)). apply in_seq. lia. }
    apply in_concat in J. destruct J as (its & Hits & J).
    destruct (Hg its Hits) as (Ig & Tg).
    assert (Pg : P (g its)) by (apply HPg; right; apply in_map_iff; eauto).
    assert (G1 : lt (g its) (f i) = false) by (apply Tg; right; now apply in_map).
    assert (G2 : lt c (g its) = false) by (apply T; right; now apply in_map).
    destruct (lt c (f i)) eqn:E; auto. destruct (Hnt Pc Pg (HP i Hi) E); congruence. }
  split; auto. destruct I as [I|I]; [now exists 0|]. apply in_map_iff in I. destruct I as (its & Ec & Hits).
  destruct (Hg its Hits) as (Ig & _). rewrite Ec in Ig. destruct Ig as [El|Ig].
  - exists 0. split; auto. destruct (Hlow 0 Hn) as [E|E]; [congruence|]. rewrite El in E. rewrite B in E by auto. discriminate E.
  - apply in_map_iff in Ig. destruct Ig as (i & E & Hi). exists i. split; auto. eapply dist_in; eauto.
Qed.
End Extremum.

Section MaxMin.
Context {F : Type} {SF : Scalar F}.
Lemma max_values (lowest : F) (P : F -> Prop) (m : mem F) (y : arg) :
  weak_order P -> P lowest -> arg_ok m y -> 0 < a_len y ->
  (forall i, i < a_len y -> P (el m y i) /\ (el m y i = lowest \/ fltb lowest (el m y i) = true)) ->
  (exists v, red_val (r_max lowest y) m v) /\ (forall v, red_val (r_max lowest y) m v -> is_max m y v) /\
  ~ red_fault (r_max lowest y) m.
Proof.
  intros (W1 & W2 & W3) Pl Hy Hn HP.
  assert (T : forall i, i < a_len y -> r_term (r_max lowest y) m i = Ok (el m y i)) by (intros; now apply el_ld).
  assert (O : r_orig (r_max lowest y) m = Ok (el m y 0)).
  { cbn. rewrite <- (el_ld Hy Hn). f_equal. unfold padd. destruct (a_ptr y); cbn. f_equal. lia. }
  split; [|split].
  - eexists. apply (@red_val_iff F (r_max lowest y) m (el m y) _ _ T O). split; auto. exists [seq 0 (a_len y)]. eexists.
    split; [apply dist_one|]. split; [apply combine_two|]. reflexivity.
  - intros v Hv. apply (@red_val_iff F (r_max lowest y) m (el m y) _ _ T O) in Hv. destruct Hv as (_ & d & c & Hd & Hc & ->). cbn [r_post r_max].
    apply (@extremum_top F fltb P W1 W2 W3 lowest Pl (el m y) (a_len y) d c); auto.
    + intros i Hi. now apply HP.
    + intros i Hi. now apply HP.
  - exact (@no_fault F (r_max lowest y) m (el m y) _ T O).
Qed.
Lemma min_values (greatest : F) (P : F -> Prop) (m : mem F) (y : arg) :
  weak_order P -> P greatest -> arg_ok m y -> 0 < a_len y ->
  (forall i, i < a_len y -> P (el m y i) /\ (el m y i = greatest \/ fltb (el m y i) greatest = true)) ->
  (exists v, red_val (r_min greatest y) m v) /\ (forall v, red_val (r_min greatest y) m v -> is_min m y v) /\
  ~ red_fault (r_min greatest y) m.
Proof.
  intros (W1 & W2 & W3) Pl Hy Hn HP.
  assert (T : forall i, i < a_len y -> r_term (r_min greatest y) m i = Ok (el m y i)) by (intros; now apply el_ld).
  assert (O : r_orig (r_min greatest y) m = Ok (el m y 0)).
  { cbn. rewrite <- (el_ld Hy Hn). f_equal. unfold padd. destruct (a_ptr y); cbn. f_equal. lia. }
  split; [|split].
  - eexists. apply (@red_val_iff F (r_min greatest y) m (el m y) _ _ T O). split; auto. exists [seq 0 (a_len y)]. eexists.
    split; [apply dist_one|]. split; [apply combine_two|]. reflexivity.
  - intros v Hv. apply (@red_val_iff F (r_min greatest y) m (el m y) _ _ T O) in Hv. destruct Hv as (_ & d & c & Hd & Hc & ->). cbn [r_post r_min].
    apply (@extremum_top F (fun a b => fltb b a) P) with (d := d) (low := greatest); auto.
    + intros a b c0 Pa Pb Pc E1 E2. eauto.
    + intros a b c0 Pa Pb Pc E. destruct (W3 c0 b a); auto.
    + intros i Hi. now apply HP.
    + intros i Hi. now apply HP.
  - exact (@no_fault F (r_min greatest y) m (el m y) _ T O).
Qed.

(** doubles without NaN are weakly ordered *)
Definition fkey (x : b64) : Z * Z * Z :=
  match x with
  | S754_infinity true => (-2, 0, 0) | S754_finite true m e => (-1, - e, - Zpos m)
  | S754_zero _ => (0, 0, 0) | S754_nan => (0, 0, 0)
  | S754_finite false m e => (1, e, Zpos m) | S754_infinity false => (2, 0, 0)
  end%Z.
Definition klt (a b : Z * Z * Z) : Prop :=
  let '(a1, a2, a3) := a in let '(b1, b2, b3) := b in
  (a1 < b1 \/ a1 = b1 /\ (a2 < b2 \/ a2 = b2 /\ a3 < b3))%Z.
Lemma SFltb_key (a b : b64) : a <> S754_nan -> b <> S754_nan -> (SFltb a b = true <-> klt (fkey a) (fkey b)).
Proof.
  intros Ha Hb. unfold SFltb, SFcompare, klt, fkey.
  destruct a as [sa|sa| |sa ma ea], b as [sb|sb| |sb mb eb]; try congruence;
    try destruct sa; try destruct sb; try (split; [discriminate||reflexivity||lia|lia]); try (split; intros; [lia|reflexivity]);
    try (split; [discriminate|lia]).
  - destruct (Z.compare_spec ea eb); try (split; [discriminate||lia|intros; reflexivity||lia]).
    change (Pos.compare_cont Eq ma mb) with (Pos.compare ma mb). destruct (Pos.compare_spec ma mb); cbn;
      (split; [discriminate||lia|intros; reflexivity||lia]).
  - destruct (Z.compare_spec ea eb); try (split; [discriminate||lia|intros; reflexivity||lia]).
    change (Pos.compare_cont Eq ma mb) with (Pos.compare ma mb). destruct (Pos.compare_spec ma mb); cbn;
      (split; [discriminate||lia|intros; reflexivity||lia]).
Qed.
Lemma b64_weak_order : @weak_order b64 b64scalar (fun x => @fnan b64 b64scalar x = false).
Proof.
  assert (N : forall x : b64, @fnan b64 b64scalar x = false -> x <> S754_nan) by (intros x H ->; discriminate H).
  split; [|split].
  - intros a Ha. apply N in Ha. cbn [fltb b64scalar]. destruct (SFltb a a) eqn:E; auto.
    apply SFltb_key in E; auto. exfalso. unfold klt in E. destruct (fkey a) as [[? ?] ?]. lia.
  - intros a b c Ha Hb Hc. apply N in Ha, Hb, Hc. cbn [fltb b64scalar]. rewrite !SFltb_key by auto. unfold klt.
    destruct (fkey a) as [[? ?] ?], (fkey b) as [[? ?] ?], (fkey c) as [[? ?] ?]. lia.
  - intros a b c Ha Hb Hc. apply N in Ha, Hb, Hc. cbn [fltb b64scalar]. rewrite !SFltb_key by auto. unfold klt.
    destruct (fkey a) as [[? ?] ?], (fkey b) as [[? ?] ?], (fkey c) as [[? ?] ?]. lia.
Qed.
End MaxMin.
